(** The stiffness at rest and under a uniform compression (C93). *)

From Coq Require Import ZArith Reals Lra Lia.
From Coquelicot Require Import Coquelicot.
From Coq Require Import List Arith Bool.
From Verif Require Import GridGeoModel ShapeModel ShapeSpec ShapeProofs ShapeGaussProofs LinAlg LinAlgProofs BarycentricModel MappingSpec MappingProofs TensorModel TensorSpec
  MaterialModel MaterialSpec MaterialProofs MaterialProperties SparseModel SparseProofs Sums HyperModel HyperSpec HyperProofs HyperProofs2 HyperProofs3 HyperProofs4 HyperProperties
  SpectrumProofs StabilitySpec StabilityProofs.
Import ListNotations.
Open Scope R_scope.

(** ** Gauss nodes *)
Section Node.
Context (d : domain) (row : list nat) (q : list R * R).
Hypothesis Sd : solid d.
Hypothesis Hr : In row (connectivity d).
Hypothesis Hq : In q (gauss_nodes (kind d)).

Lemma gradient_is_displacement v : gradient v row (the_node d row q) = displacement_gradient d v row (fst q).
Proof.
  destruct (solid_row d row Sd Hr) as [Hl _]. unfold gradient, displacement_gradient, product. rewrite Hl. apply of_entries_ext. intros i j Hi Hj.
  rewrite grad_the_node by (first [apply Sd | assumption]). apply sum3_ext. intros l Hk. f_equal.
  rewrite (jacobian_entries d row q) by (first [apply Sd | assumption]). rewrite entries_of_entries by assumption. reflexivity.
Qed.

Lemma node_weight : regular d -> 0 < jacobian_determinant (the_node d row q) * weight (the_node d row q).
Proof.
  intros RG. cbn [jacobian_determinant weight the_node]. apply Rmult_lt_0_compat; [|exact (weights_positive _ _ Hq)].
  apply Rabs_pos_lt. exact (proj1 (Forall_forall _ _) (proj1 (Forall_forall _ _) RG row Hr) q Hq).
Qed.

Lemma gradient_rest : regular d -> gradient (positions d) row (the_node d row q) = Id3.
Proof.
  intros RG. destruct (solid_row d row Sd Hr) as [Hl _]. change Id3 with (of_entries delta). unfold gradient. rewrite Hl.
  apply of_entries_ext. intros i j Hi Hj. apply rest_gradient; try assumption; [apply Sd|].
  exact (proj1 (Forall_forall _ _) (proj1 (Forall_forall _ _) RG row Hr) q Hq).
Qed.

(** Fields given by an affine function of the rest position. *)
Lemma gradient_affine v t (A : nat -> nat -> R) : regular d ->
  (forall p c, (p < length (positions d))%nat -> (c < 3)%nat -> entries v p c = nth c t 0 + sum3 (fun l => A c l * entries (positions d) p l)) ->
  gradient v row (the_node d row q) = of_entries A.
Proof.
  intros RG V. destruct (solid_row d row Sd Hr) as [Hl Hi]. unfold gradient. rewrite Hl. apply of_entries_ext. intros i j Hi' Hj.
  unfold grad at 1. set (n := NumberOfNodes (kind d)) in *.
  rewrite (Rsum_ext _ _ (fun a => nth i t 0 * entries (dN_dx (the_node d row q)) a j +
    sum3 (fun l => A i l * (entries (gather (positions d) row) a l * entries (dN_dx (the_node d row q)) a j)))).
  2:{ intros a Ha. apply in_seq in Ha. rewrite !gather_entries by lia.
      assert (P : (nth a row 0 < length (positions d))%nat) by (apply (proj1 (Forall_forall _ _) Hi); apply nth_In; lia).
      rewrite V by assumption. unfold sum3. rewrite !gather_entries by lia. ring. }
  rewrite Rsum_plus, Rsum_scal_l. unfold n. rewrite the_node_sum by (first [apply Sd | assumption]). unfold sum3. rewrite !Rsum_plus, !Rsum_scal_l.
  assert (Q : forall l, (l < 3)%nat -> Rsum (map (fun a => entries (gather (positions d) row) a l * entries (dN_dx (the_node d row q)) a j) (seq 0 n)) = delta l j).
  { intros l Hk. apply (rest_gradient d row q); try assumption; [apply Sd|].
    exact (proj1 (Forall_forall _ _) (proj1 (Forall_forall _ _) RG row Hr) q Hq). }
  fold n. rewrite !Q by lia. unfold delta. destruct j as [|[|[|]]]; try lia; cbn [Nat.eqb]; ring.
Qed.
End Node.

(** ** At rest *)
Lemma tangent_rest m : PK2_stress_jacobian m 1 Id3 = elasticity_matrix m.
Proof.
  unfold PK2_stress_jacobian. destruct (kind_of m); [|reflexivity].
  cbn zeta. rewrite ln_1. replace (inverse Id3) with Id3.
  - unfold symmetric_dyad_1, symmetric_dyad_2, elasticity_matrix, madd, mscale, vadd, vscale, e, Id3. cbn [map map2 nth].
    repeat (f_equal; try field).
  - unfold Id3, inverse, det. repeat (f_equal; try field).
Qed.
Lemma rest_invariants : det Id3 = 1 /\ cauchy_green Id3 = Id3.
Proof.
  split; [unfold Id3, det; ring|]. unfold cauchy_green, of_entries, sum3, entries, Id3. cbn [map seq nth]. repeat (f_equal; try ring).
Qed.

Definition hooke (m : material) (E : list (list R)) : R := lambda m * (trace E * trace E) + 2 * mu m * double_dot E E.

Lemma gauss_quadratic_rest m G : gauss_quadratic m Id3 G = hooke m (strain G).
Proof.
  unfold gauss_quadratic. destruct rest_invariants as [-> ->]. rewrite (proj2 (C54_rest_state m)), tangent_rest.
  unfold geometric. rewrite (sum3_ext _ (fun _ => 0)).
  2:{ intros c _. unfold sum3. rewrite !entries_of_entries by lia. ring. }
  unfold hooke, double_dot, trace, strain, strain_voigt, strain_rate, voigt_strain, voigt, elasticity_matrix.
  generalize (entries G). intros h.
  unfold sum6, sum3, e, of_entries, entries, Id3. cbn [map seq nth fst snd Nat.eqb]. field.
Qed.

Lemma hooke_scalar mu la a b c D : 0 < mu -> 0 < 3 * la + 2 * mu -> a * a + b * b + c * c <= D ->
  let t := a + b + c in 0 <= la * (t * t) + 2 * mu * D /\ (la * (t * t) + 2 * mu * D = 0 -> D = 0).
Proof.
  intros M L H t. assert (T : 0 <= 3 * D - t * t).
  { unfold t. pose proof (Rle_0_sqr (a - b)). pose proof (Rle_0_sqr (a - c)). pose proof (Rle_0_sqr (b - c)). unfold Rsqr in *. lra. }
  assert (E : 3 * (la * (t * t) + 2 * mu * D) = (3 * la + 2 * mu) * (t * t) + 2 * mu * (3 * D - t * t)) by ring.
  assert (P : 0 <= (3 * la + 2 * mu) * (t * t)) by (apply Rmult_le_pos; [lra|apply Rle_0_sqr]).
  assert (Q : 0 <= 2 * mu * (3 * D - t * t)) by (apply Rmult_le_pos; lra).
  split; [lra|]. intros Z. rewrite Z in E.
  assert (Z1 : (3 * la + 2 * mu) * (t * t) = 0) by lra. assert (Z2 : 2 * mu * (3 * D - t * t) = 0) by lra.
  apply Rmult_integral in Z1. apply Rmult_integral in Z2. destruct Z1 as [Z1|Z1]; [lra|]. destruct Z2 as [Z2|Z2]; lra.
Qed.
Lemma double_dot_squares E : let f := entries E in
  double_dot E E = f 0%nat 0%nat * f 0%nat 0%nat + f 1%nat 1%nat * f 1%nat 1%nat + f 2%nat 2%nat * f 2%nat 2%nat +
    ((f 0%nat 1%nat)² + (f 0%nat 2%nat)² + (f 1%nat 0%nat)² + (f 1%nat 2%nat)² + (f 2%nat 0%nat)² + (f 2%nat 1%nat)²).
Proof. intros f. unfold double_dot, sum3, Rsqr. fold f. ring. Qed.
Lemma double_dot_bound E : entries E 0 0 * entries E 0 0 + entries E 1 1 * entries E 1 1 + entries E 2 2 * entries E 2 2 <= double_dot E E.
Proof.
  rewrite double_dot_squares. cbv zeta. 
  pose proof (Rle_0_sqr (entries E 0 1)). pose proof (Rle_0_sqr (entries E 0 2)). pose proof (Rle_0_sqr (entries E 1 0)).
  pose proof (Rle_0_sqr (entries E 1 2)). pose proof (Rle_0_sqr (entries E 2 0)). pose proof (Rle_0_sqr (entries E 2 1)). lra.
Qed.
Lemma double_dot_zero E i j : double_dot E E = 0 -> (i < 3)%nat -> (j < 3)%nat -> entries E i j = 0.
Proof.
  rewrite double_dot_squares. cbv zeta. intros H Hi Hj.
  pose proof (Rle_0_sqr (entries E 0 0)). pose proof (Rle_0_sqr (entries E 1 1)). pose proof (Rle_0_sqr (entries E 2 2)).
  pose proof (Rle_0_sqr (entries E 0 1)). pose proof (Rle_0_sqr (entries E 0 2)). pose proof (Rle_0_sqr (entries E 1 0)).
  pose proof (Rle_0_sqr (entries E 1 2)). pose proof (Rle_0_sqr (entries E 2 0)). pose proof (Rle_0_sqr (entries E 2 1)).
  fold (entries E 0 0)² (entries E 1 1)² (entries E 2 2)² in H.
  apply Rsqr_0_uniq. destruct i as [|[|[|]]], j as [|[|[|]]]; try lia; lra.
Qed.

Lemma hooke_nonneg m E : stable m -> 0 <= hooke m E.
Proof. intros [M L]. exact (proj1 (hooke_scalar (mu m) (lambda m) _ _ _ (double_dot E E) M L (double_dot_bound E))). Qed.
Lemma hooke_zero m G : stable m -> hooke m (strain G) = 0 -> strain G = of_entries (fun _ _ => 0).
Proof.
  intros [M L] H. pose proof (proj2 (hooke_scalar (mu m) (lambda m) _ _ _ (double_dot (strain G) (strain G)) M L (double_dot_bound (strain G))) H) as Z.
  rewrite (matrix3_entries (strain G)) by apply of_entries_matrix3. apply of_entries_ext. intros i j Hi Hj. apply double_dot_zero; assumption.
Qed.

Lemma rest_form m d v : solid d -> distinct_nodes d -> regular d -> field (length (positions d)) 3 v ->
  quadratic (length (positions d) * 3) (stiffness m d (positions d)) (concat v) = hooke_energy m d v.
Proof.
  intros Sd ND RG Fv. rewrite quadratic_form by (first [assumption | apply Sd]). unfold hooke_energy. apply Rsum_ext. intros row Hr.
  unfold quad. rewrite get_gauss_nodes_alt, map_map. apply Rsum_ext. intros q Hq.
  rewrite gradient_rest, gradient_is_displacement, gauss_quadratic_rest by assumption. cbn [jacobian_determinant weight the_node].
  unfold hooke, local_volume, rest_J. ring.
Qed.

Lemma Rsum_nonneg (A : Type) (f : A -> R) l : (forall a, In a l -> 0 <= f a) -> 0 <= Rsum (map f l).
Proof. induction l as [|a l IH]; intros H; cbn [map Rsum fold_right]; [lra|]. pose proof (H a (or_introl eq_refl)). specialize (IH (fun b Hb => H b (or_intror Hb))). unfold Rsum in IH. lra. Qed.
Lemma Rsum_all_zero (A : Type) (f : A -> R) l : (forall a, In a l -> 0 <= f a) -> Rsum (map f l) = 0 -> forall a, In a l -> f a = 0.
Proof.
  induction l as [|b l IH]; intros H Z a Ha; [destruct Ha|]. cbn [map Rsum fold_right] in Z. change (fold_right Rplus 0 (map f l)) with (Rsum (map f l)) in Z.
  pose proof (H b (or_introl eq_refl)) as Hb. pose proof (Rsum_nonneg A f l (fun c Hc => H c (or_intror Hc))) as Hl.
  destruct Ha as [<- |Ha]; [lra|]. apply IH; [intros c Hc; apply H; right; exact Hc|lra|exact Ha].
Qed.

Lemma hooke_energy_nonneg m d v : stable m -> 0 <= hooke_energy m d v.
Proof.
  intros St. unfold hooke_energy. apply Rsum_nonneg. intros row Hr. apply Rsum_nonneg. intros q Hq. apply Rmult_le_pos.
  - apply Rmult_le_pos; [left; exact (weights_positive _ _ Hq)|apply Rabs_pos].
  - exact (hooke_nonneg m _ St).
Qed.
Lemma hooke_energy_zero m d v : stable m -> regular d -> hooke_energy m d v = 0 <-> strain_free d v.
Proof.
  intros St RG. split.
  - intros Z row q Hr Hq. unfold hooke_energy in Z.
    assert (P : forall row, 0 <= Rsum (map (fun g => snd g * Rabs (local_volume d row (fst g)) * hooke m (strain (displacement_gradient d v row (fst g)))) (gauss_nodes (kind d)))).
    { intros r. apply Rsum_nonneg. intros g Hg. apply Rmult_le_pos; [|exact (hooke_nonneg m _ St)].
      apply Rmult_le_pos; [left; exact (weights_positive _ _ Hg)|apply Rabs_pos]. }
    pose proof (Rsum_all_zero _ _ _ (fun r _ => P r) Z row Hr) as Z1. cbv beta in Z1.
    assert (P2 : forall g, In g (gauss_nodes (kind d)) -> 0 <= snd g * Rabs (local_volume d row (fst g)) * hooke m (strain (displacement_gradient d v row (fst g)))).
    { intros g Hg. apply Rmult_le_pos; [|exact (hooke_nonneg m _ St)]. apply Rmult_le_pos; [left; exact (weights_positive _ _ Hg)|apply Rabs_pos]. }
    pose proof (Rsum_all_zero _ _ _ P2 Z1 q Hq) as Z2. cbv beta in Z2.
    pose proof (proj1 (Forall_forall _ _) (proj1 (Forall_forall _ _) RG row Hr) q Hq) as NZ. cbv beta in NZ.
    pose proof (weights_positive _ _ Hq). pose proof (Rabs_pos_lt _ NZ).
    apply Rmult_integral in Z2. destruct Z2 as [Z2|Z2]; [|exact (hooke_zero m _ St Z2)].
    apply Rmult_integral in Z2. lra.
  - intros SF. unfold hooke_energy. apply Rsum_zero. intros row Hr. apply Rsum_zero. intros q Hq. cbv zeta. rewrite (SF row q Hr Hq).
    unfold trace, double_dot, e, sum3, of_entries, entries. cbn [map seq nth]. ring.
Qed.

Lemma strain_voigt_rest G alpha : (alpha < 6)%nat -> strain_voigt Id3 G alpha = nth alpha (voigt_strain (entries (strain G))) 0.
Proof.
  intros H. unfold strain_voigt. f_equal. f_equal. f_equal. unfold strain_rate, strain. apply of_entries_ext. intros i j Hi Hj.
  generalize (entries G). intros h. unfold sum3, entries, Id3. destruct i as [|[|[|]]], j as [|[|[|]]]; try lia; cbn [nth]; field.
Qed.

Lemma strain_free_annihilated m d v : solid d -> distinct_nodes d -> regular d -> field (length (positions d)) 3 v -> strain_free d v ->
  annihilates (length (positions d) * 3) (stiffness m d (positions d)) (concat v).
Proof.
  intros Sd ND RG Fv SF i Hi. pose proof (Nat.div_mod i 3 ltac:(lia)) as D. pose proof (Nat.mod_upper_bound i 3 ltac:(lia)) as U.
  replace i with (i / 3 * 3 + i mod 3)%nat by lia. rewrite product_row by (first [assumption | apply Sd]).
  apply Rsum_zero. intros row Hr. apply Rsum_zero. intros a Ha. destruct (Nat.eqb _ _); [|reflexivity].
  apply Rsum_zero. intros g Hg. destruct (quad_in d row g Hg) as (q & Hq & ->).
  rewrite gradient_rest, gradient_is_displacement by assumption. destruct rest_invariants as [-> ->]. rewrite (proj2 (C54_rest_state m)).
  assert (Z : forall beta, (beta < 6)%nat -> strain_voigt Id3 (displacement_gradient d v row (fst q)) beta = 0).
  { intros beta Hb. rewrite strain_voigt_rest by exact Hb. rewrite (SF row q Hr Hq).
    unfold voigt_strain, voigt, of_entries, entries. cbn [map seq nth fst snd Nat.eqb]. destruct beta as [|[|[|[|[|[|]]]]]]; try lia; cbn [nth]; ring. }
  unfold sum6. rewrite !Z by lia. unfold geometric, sum3. rewrite !entries_of_entries by lia. ring.
Qed.
Lemma annihilated_quadratic n A v : annihilates n A v -> quadratic n A v = 0.
Proof. intros H. unfold quadratic. apply Rsum_zero. intros i Hi. apply in_seq in Hi. rewrite H by lia. ring. Qed.

(** ** Rigid motions *)
Definition spin (w : list R) (i j : nat) : R := nth j (nth i [ [0; - nth 2 w 0; nth 1 w 0]; [nth 2 w 0; 0; - nth 0 w 0]; [- nth 1 w 0; nth 0 w 0; 0] ] []) 0.
Lemma length3 (l : list R) : length l = 3%nat -> exists a b c, l = [a; b; c].
Proof. destruct l as [|a [|b [|c [|]]]]; try discriminate. intros _. exists a, b, c. reflexivity. Qed.

Lemma rigid_field N X v : field N 3 X -> rigid X v -> field N 3 v.
Proof.
  intros [LX FX] (t & w & Lt & Lw & ->). split; [rewrite map_length; exact LX|]. apply Forall_forall. intros r Hr. apply in_map_iff in Hr.
  destruct Hr as (p & <- & Hp). destruct (length3 t Lt) as (a & b & c & ->). reflexivity.
Qed.
Lemma rigid_entries N X t w p c : field N 3 X -> length t = 3%nat -> (p < N)%nat -> (c < 3)%nat ->
  entries (map (fun p => vadd t (vcross w p)) X) p c = nth c t 0 + sum3 (fun l => spin w c l * entries X p l).
Proof.
  intros [LX FX] Lt Hp Hc. unfold entries at 1. rewrite (nth_indep _ [] (vadd t (vcross w []))) by (rewrite map_length; lia).
  rewrite (map_nth (fun p => vadd t (vcross w p))). unfold entries. set (r := nth p X []).
  destruct (length3 t Lt) as (a & b & c' & ->). unfold vadd, vcross, spin, sum3.
  destruct c as [|[|[|]]]; try lia; cbn [map2 nth]; ring.
Qed.
Lemma rigid_gradient d row q t w : solid d -> In row (connectivity d) -> In q (gauss_nodes (kind d)) -> regular d -> length t = 3%nat ->
  gradient (map (fun p => vadd t (vcross w p)) (positions d)) row (the_node d row q) = of_entries (spin w).
Proof.
  intros Sd Hr Hq RG Lt. apply (gradient_affine d row q Sd Hr Hq _ t); [exact RG|]. intros p c Hp Hc.
  apply (rigid_entries (length (positions d))); try assumption. apply Sd.
Qed.
Lemma spin_strain w : strain (of_entries (spin w)) = of_entries (fun _ _ => 0).
Proof.
  unfold strain. apply of_entries_ext. intros i j Hi Hj. rewrite !entries_of_entries by assumption. unfold spin.
  destruct i as [|[|[|]]], j as [|[|[|]]]; try lia; cbn [nth]; field.
Qed.
Lemma rigid_strain_free d v : solid d -> regular d -> rigid (positions d) v -> strain_free d v.
Proof.
  intros Sd RG (t & w & Lt & Lw & ->) row q Hr Hq. rewrite <- (gradient_is_displacement d row q Sd Hr).
  rewrite rigid_gradient by assumption. apply spin_strain.
Qed.

(** ** Uniform compression *)
Definition pressure (m : material) (s : R) : R :=
  match kind_of m with
  | NeoHookean => (mu m * (s * s - 1) + 3 * lambda m * ln s) / (s * s)
  | SaintVenantKirchhoff => (3 / 2 * lambda m + mu m) * (s * s - 1)
  end.
Lemma pressure_negative m s : 0 < mu m -> 0 <= lambda m -> 0 < s < 1 -> pressure m s < 0.
Proof.
  intros M L [S0 S1]. unfold pressure. assert (s * s < 1) by nra. assert (0 < s * s) by nra. destruct (kind_of m).
  - assert (ln s < 0) by (rewrite <- ln_1; apply ln_increasing; lra).
    assert (I : 0 < / (s * s)) by (apply Rinv_0_lt_compat; assumption). assert (lambda m * ln s <= 0) by nra.
    assert (Q : mu m * (s * s - 1) + 3 * lambda m * ln s < 0) by nra. unfold Rdiv. nra.
  - nra.
Qed.
Definition dilation (s : R) : list (list R) := of_entries (fun i j => s * delta i j).
Lemma stress_dilation m s : 0 < s -> PK2_stress m (det (dilation s)) (cauchy_green (dilation s)) = of_entries (fun i j => pressure m s * delta i j).
Proof.
  intros S0. assert (Dd : det (dilation s) = s * s * s) by (unfold dilation, delta, of_entries, det; cbn [map seq nth Nat.eqb]; ring).
  assert (Cc : cauchy_green (dilation s) = of_entries (fun i j => s * s * delta i j)).
  { unfold cauchy_green. apply of_entries_ext. intros i j Hi Hj. unfold dilation, sum3. rewrite !entries_of_entries by lia. unfold delta.
    destruct i as [|[|[|]]], j as [|[|[|]]]; try lia; cbn [Nat.eqb]; ring. }
  rewrite Dd, Cc. unfold pressure. destruct (kind_of m) eqn:K.
  - rewrite stress_neo by assumption. apply of_entries_ext. intros i j Hi Hj.
    assert (LN : ln (s * s * s) = 3 * ln s) by (rewrite !ln_mult by nra; ring). rewrite LN.
    replace (adj (fun i j => s * s * delta i j) i j / det3 (fun i j => s * s * delta i j)) with (delta i j / (s * s)); [field; lra|].
    unfold det3, delta. cbn [Nat.eqb]. destruct i as [|[|[|]]], j as [|[|[|]]]; try lia; unfold adj; cbn [Nat.eqb]; field; lra.
  - rewrite stress_svk by assumption. cbn zeta. apply of_entries_ext. intros i j Hi Hj. unfold delta, sum3. cbn [Nat.eqb].
    destruct i as [|[|[|]]], j as [|[|[|]]]; try lia; cbn [Nat.eqb]; field.
Qed.
Lemma gauss_quadratic_spin m s w : 0 < s -> length w = 3%nat ->
  gauss_quadratic m (dilation s) (of_entries (spin w)) = 2 * pressure m s * (nth 0 w 0 * nth 0 w 0 + nth 1 w 0 * nth 1 w 0 + nth 2 w 0 * nth 2 w 0).
Proof.
  intros S0 Lw. unfold gauss_quadratic. rewrite stress_dilation by exact S0. set (D := PK2_stress_jacobian _ _ _).
  assert (Z : forall beta, (beta < 6)%nat -> strain_voigt (dilation s) (of_entries (spin w)) beta = 0).
  { intros beta Hb. unfold strain_voigt, strain_rate, voigt_strain, voigt, dilation, delta, spin, sum3, of_entries, entries. cbn [map seq nth fst snd Nat.eqb].
    destruct beta as [|[|[|[|[|[|]]]]]]; try lia; cbn [nth]; field. }
  unfold sum6 at 1. rewrite !Z by lia. unfold geometric, sum3. rewrite !entries_of_entries by lia. unfold spin, delta. cbn [nth Nat.eqb]. ring.
Qed.
