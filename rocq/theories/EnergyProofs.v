(** The energy density and its sum over the body (C96). *)

From Coq Require Import ZArith Reals Lra Lia Psatz.
From Coquelicot Require Import Coquelicot.
From Coq Require Import List Arith Bool.
From Verif Require Import GridGeoModel ShapeModel ShapeSpec ShapeProofs ShapeFieldProofs ShapeGaussProofs LinAlg LinAlgProofs RectSpec NewtonLocalProofs BarycentricModel MappingSpec MappingProofs TensorModel TensorSpec
  MaterialModel MaterialSpec MaterialProofs MaterialProperties SparseModel SparseProofs Sums HyperModel HyperSpec HyperProofs HyperProofs2 HyperProofs3 HyperProofs4 HyperProperties
  SpectrumProofs StabilitySpec StabilityProofs StabilityProofs2 EnergySpec.
Import ListNotations.
Open Scope R_scope.

(** ** Logarithms *)
Lemma ln_below x : 0 < x -> ln x <= x - 1.
Proof. intros H. pose proof (exp_ineq1_le (ln x)) as E. rewrite exp_ln in E by exact H. lra. Qed.
Lemma ln_below_strict x : 0 < x -> ln x = x - 1 -> x = 1.
Proof.
  intros H E. destruct (Req_dec x 1) as [H1|H1]; [exact H1|exfalso].
  assert (N : ln x <> 0) by (intros Z; lra). pose proof (exp_ineq1 (ln x) N) as I. rewrite exp_ln in I by exact H. lra.
Qed.

(** ** Hadamard's inequality for three vectors *)
Lemma gram_bound a b c u v w : 0 <= a -> 0 <= b -> 0 <= c -> u * u <= a * b -> v * v <= a * c -> w * w <= b * c ->
  2 * (u * v * w) <= a * (w * w) + b * (v * v).
Proof.
  intros Ha Hb Hc U V W. set (S := a * (w * w) + b * (v * v)).
  assert (PS : 0 <= S) by (unfold S; pose proof (Rle_0_sqr w); pose proof (Rle_0_sqr v); unfold Rsqr in *; nra).
  assert (Q : (2 * (u * v * w)) * (2 * (u * v * w)) <= S * S).
  { assert (A : (2 * (u * v * w)) * (2 * (u * v * w)) <= 4 * (a * b) * ((v * w) * (v * w))).
    { replace ((2 * (u * v * w)) * (2 * (u * v * w))) with (4 * (u * u) * ((v * w) * (v * w))) by ring.
      pose proof (Rle_0_sqr (v * w)) as P. unfold Rsqr in P. nra. }
    assert (B : 4 * (a * b) * ((v * w) * (v * w)) <= S * S).
    { unfold S. pose proof (Rle_0_sqr (a * (w * w) - b * (v * v))) as P. unfold Rsqr in P. nra. }
    lra. }
  destruct (Rle_dec (2 * (u * v * w)) 0) as [L|L]; [lra|]. apply Rsqr_incr_0; unfold Rsqr; lra.
Qed.

(** For the Gram matrix of the columns of F. *)
Section Gram.
Context (f : nat -> nat -> R).
Let c (i j : nat) : R := sum3 (fun k => f k i * f k j).
Lemma gram_det : det3 f * det3 f = c 0 0 * (c 1 1 * c 2 2 - c 1 2 * c 1 2) - c 0 1 * (c 0 1 * c 2 2 - c 1 2 * c 0 2) + c 0 2 * (c 0 1 * c 1 2 - c 1 1 * c 0 2).
Proof. unfold det3, c, sum3. ring. Qed.
Lemma gram_cauchy i j : c i j * c i j <= c i i * c j j.
Proof.
  unfold c, sum3.
  assert (E : (f 0%nat i * f 0%nat i + f 1%nat i * f 1%nat i + f 2%nat i * f 2%nat i) * (f 0%nat j * f 0%nat j + f 1%nat j * f 1%nat j + f 2%nat j * f 2%nat j)
    - (f 0%nat i * f 0%nat j + f 1%nat i * f 1%nat j + f 2%nat i * f 2%nat j) * (f 0%nat i * f 0%nat j + f 1%nat i * f 1%nat j + f 2%nat i * f 2%nat j)
    = Rsqr (f 0%nat i * f 1%nat j - f 1%nat i * f 0%nat j) + Rsqr (f 0%nat i * f 2%nat j - f 2%nat i * f 0%nat j) + Rsqr (f 1%nat i * f 2%nat j - f 2%nat i * f 1%nat j))
    by (unfold Rsqr; ring).
  pose proof (Rle_0_sqr (f 0%nat i * f 1%nat j - f 1%nat i * f 0%nat j)). pose proof (Rle_0_sqr (f 0%nat i * f 2%nat j - f 2%nat i * f 0%nat j)).
  pose proof (Rle_0_sqr (f 1%nat i * f 2%nat j - f 2%nat i * f 1%nat j)). lra.
Qed.
Lemma gram_nonneg i : 0 <= c i i.
Proof. unfold c, sum3. pose proof (Rle_0_sqr (f 0%nat i)). pose proof (Rle_0_sqr (f 1%nat i)). pose proof (Rle_0_sqr (f 2%nat i)). unfold Rsqr in *. lra. Qed.
Lemma hadamard : det3 f * det3 f + c 2 2 * (c 0 1 * c 0 1) <= c 0 0 * c 1 1 * c 2 2 /\ det3 f * det3 f + c 1 1 * (c 0 2 * c 0 2) <= c 0 0 * c 1 1 * c 2 2 /\
  det3 f * det3 f + c 0 0 * (c 1 2 * c 1 2) <= c 0 0 * c 1 1 * c 2 2.
Proof.
  rewrite gram_det. pose proof (gram_nonneg 0) as P0. pose proof (gram_nonneg 1) as P1. pose proof (gram_nonneg 2) as P2.
  pose proof (gram_cauchy 0 1) as C01. pose proof (gram_cauchy 0 2) as C02. pose proof (gram_cauchy 1 2) as C12.
  pose proof (gram_bound (c 0 0) (c 1 1) (c 2 2) (c 0 1) (c 0 2) (c 1 2) P0 P1 P2 C01 C02 C12) as B1.
  pose proof (gram_bound (c 0 0) (c 2 2) (c 1 1) (c 0 2) (c 0 1) (c 1 2) P0 P2 P1 C02 C01 ltac:(lra)) as B2.
  pose proof (gram_bound (c 1 1) (c 2 2) (c 0 0) (c 1 2) (c 0 1) (c 0 2) P1 P2 P0 C12 ltac:(lra) ltac:(lra)) as B3.
  repeat split; lra.
Qed.
Lemma gram_positive : det3 f <> 0 -> 0 < c 0 0 /\ 0 < c 1 1 /\ 0 < c 2 2.
Proof.
  intros N. destruct hadamard as (H & _). pose proof (Rsqr_pos_lt _ N) as D. unfold Rsqr in D.
  pose proof (gram_nonneg 0) as P0. pose proof (gram_nonneg 1) as P1. pose proof (gram_nonneg 2) as P2.
  assert (P : 0 < c 0 0 * c 1 1 * c 2 2) by (pose proof (Rle_0_sqr (c 0 1)) as Q; unfold Rsqr in Q; nra).
  repeat split; destruct (Rle_lt_or_eq_dec _ _ P0) as [|E0], (Rle_lt_or_eq_dec _ _ P1) as [|E1], (Rle_lt_or_eq_dec _ _ P2) as [|E2]; try assumption;
  exfalso; try rewrite <- E0 in P; try rewrite <- E1 in P; try rewrite <- E2 in P; lra.
Qed.
(** tr C - 3 - 2 ln J, its sign and its zeros *)
Lemma log_gap : 0 < det3 f -> 0 <= c 0 0 + c 1 1 + c 2 2 - 3 - 2 * ln (det3 f).
Proof.
  intros D. destruct (gram_positive ltac:(lra)) as (P0 & P1 & P2). destruct hadamard as (H & _).
  assert (P01 : 0 < c 0 0 * c 1 1) by nra.
  assert (B : ln (det3 f * det3 f) <= ln (c 0 0 * c 1 1 * c 2 2)).
  { apply ln_le; [nra|]. pose proof (Rle_0_sqr (c 0 1)) as Q. unfold Rsqr in Q. nra. }
  rewrite !ln_mult in B by assumption. pose proof (ln_below _ P0). pose proof (ln_below _ P1). pose proof (ln_below _ P2). lra.
Qed.
Lemma log_gap_zero : 0 < det3 f -> c 0 0 + c 1 1 + c 2 2 - 3 - 2 * ln (det3 f) = 0 ->
  c 0 0 = 1 /\ c 1 1 = 1 /\ c 2 2 = 1 /\ c 0 1 = 0 /\ c 0 2 = 0 /\ c 1 2 = 0.
Proof.
  intros D Z. destruct (gram_positive ltac:(lra)) as (P0 & P1 & P2). destruct hadamard as (H1 & H2 & H3).
  assert (P01 : 0 < c 0 0 * c 1 1) by nra.
  assert (B : ln (det3 f * det3 f) <= ln (c 0 0 * c 1 1 * c 2 2)).
  { apply ln_le; [nra|]. pose proof (Rle_0_sqr (c 0 1)) as Q. unfold Rsqr in Q. nra. }
  pose proof B as B'. rewrite !ln_mult in B by assumption. pose proof (ln_below _ P0). pose proof (ln_below _ P1). pose proof (ln_below _ P2).
  assert (E0 : c 0 0 = 1) by (apply ln_below_strict; lra). assert (E1 : c 1 1 = 1) by (apply ln_below_strict; lra). assert (E2 : c 2 2 = 1) by (apply ln_below_strict; lra).
  assert (LD : ln (det3 f) = 0) by lra.
  assert (D1 : det3 f = 1) by (apply ln_inv; [exact D|lra|rewrite ln_1; exact LD]).
  rewrite D1, E0, E1, E2 in *.
  assert (S : forall z : R, z * z <= 0 -> z = 0) by (intros z Hz; apply Rsqr_0_uniq; pose proof (Rle_0_sqr z); unfold Rsqr in *; lra).
  repeat split; try reflexivity; apply S; lra.
Qed.
End Gram.

(** ** The density *)
Lemma cauchy_green_entries F i j : (i < 3)%nat -> (j < 3)%nat -> entries (cauchy_green F) i j = sum3 (fun k => entries F k i * entries F k j).
Proof. intros. unfold cauchy_green. rewrite entries_of_entries by assumption. reflexivity. Qed.
Lemma cauchy_green_is_Id F : (forall i j, (i < 3)%nat -> (j < 3)%nat -> sum3 (fun k => entries F k i * entries F k j) = delta i j) -> cauchy_green F = Id3.
Proof. intros H. change Id3 with (of_entries delta). unfold cauchy_green. apply of_entries_ext. exact H. Qed.
Lemma isometry_gram F i j : cauchy_green F = Id3 -> (i < 3)%nat -> (j < 3)%nat -> sum3 (fun k => entries F k i * entries F k j) = delta i j.
Proof. intros H Hi Hj. rewrite <- cauchy_green_entries by assumption. rewrite H. change Id3 with (of_entries delta). apply entries_of_entries; assumption. Qed.

Lemma neo_density m F : kind_of m = NeoHookean -> matrix3 F ->
  strain_energy_density m (det F) (cauchy_green F) =
  mu m / 2 * (sum3 (fun i => sum3 (fun k => entries F k i * entries F k i)) - 3 - 2 * ln (det F)) + lambda m / 2 * (ln (det F) * ln (det F)).
Proof.
  intros K M. unfold cauchy_green. rewrite energy_neo by exact K. unfold sum3. field.
Qed.
Lemma svk_density m F : kind_of m = SaintVenantKirchhoff ->
  strain_energy_density m (det F) (cauchy_green F) =
  / 2 * hooke m (of_entries (fun i j => / 2 * (sum3 (fun k => entries F k i * entries F k j) - delta i j))).
Proof.
  intros K. unfold cauchy_green. rewrite energy_svk by exact K. cbv zeta. set (E := fun i j => / 2 * (sum3 (fun k => entries F k i * entries F k j) - delta i j)).
  assert (S : forall i j, E i j = E j i). { intros i j. unfold E, sum3, delta. rewrite (Nat.eqb_sym i j). f_equal. f_equal. ring. }
  change (lambda m / 2 * ((E 0%nat 0%nat + E 1%nat 1%nat + E 2%nat 2%nat) * (E 0%nat 0%nat + E 1%nat 1%nat + E 2%nat 2%nat)) +
    mu m * sum3 (fun i => sum3 (fun j => E i j * E j i)) = / 2 * hooke m (of_entries E)).
  clearbody E. unfold hooke, trace, double_dot, sum3. change e with entries. rewrite !entries_of_entries by lia.
  rewrite (S 1%nat 0%nat), (S 2%nat 0%nat), (S 2%nat 1%nat). field.
Qed.

Definition resisting (m : material) (J : R) : Prop :=
  match kind_of m with NeoHookean => 0 < mu m /\ 0 <= lambda m /\ 0 < J | SaintVenantKirchhoff => stable m end.
Lemma density_nonneg m F : matrix3 F -> resisting m (det F) -> 0 <= strain_energy_density m (det F) (cauchy_green F).
Proof.
  intros M H. unfold resisting in H. destruct (kind_of m) eqn:K.
  - destruct H as (Hm & Hl & Hd). rewrite neo_density by assumption. rewrite (det_entries F M) in *.
    pose proof (log_gap (entries F) Hd) as G. unfold sum3 at 1. pose proof (Rle_0_sqr (ln (det3 (entries F)))) as Q. unfold Rsqr in Q.
    apply Rplus_le_le_0_compat; apply Rmult_le_pos; lra.
  - rewrite svk_density by exact K. pose proof (hooke_nonneg m (of_entries (fun i j => / 2 * (sum3 (fun k => entries F k i * entries F k j) - delta i j))) H). lra.
Qed.
Lemma density_zero m F : matrix3 F -> resisting m (det F) -> strain_energy_density m (det F) (cauchy_green F) = 0 -> cauchy_green F = Id3.
Proof.
  intros M H Z. unfold resisting in H. apply cauchy_green_is_Id. destruct (kind_of m) eqn:K.
  - destruct H as (Hm & Hl & Hd). rewrite neo_density in Z by assumption. rewrite (det_entries F M) in *.
    pose proof (log_gap (entries F) Hd) as G. unfold sum3 at 1 in Z. pose proof (Rle_0_sqr (ln (det3 (entries F)))) as Q. unfold Rsqr in Q.
    assert (G0 : sum3 (fun k => entries F k 0 * entries F k 0) + sum3 (fun k => entries F k 1 * entries F k 1) + sum3 (fun k => entries F k 2 * entries F k 2) - 3 - 2 * ln (det3 (entries F)) = 0).
    { destruct (Rle_lt_or_eq_dec _ _ G) as [P|P]; [|symmetry; exact P]. exfalso.
      assert (0 < mu m / 2 * (sum3 (fun k => entries F k 0 * entries F k 0) + sum3 (fun k => entries F k 1 * entries F k 1) + sum3 (fun k => entries F k 2 * entries F k 2) - 3 - 2 * ln (det3 (entries F))))
        by (apply Rmult_lt_0_compat; [lra|exact P]).
      assert (0 <= lambda m / 2 * (ln (det3 (entries F)) * ln (det3 (entries F)))) by (apply Rmult_le_pos; lra). lra. }
    destruct (log_gap_zero (entries F) Hd G0) as (E0 & E1 & E2 & E01 & E02 & E12).
    assert (S : forall i j, sum3 (fun k => entries F k i * entries F k j) = sum3 (fun k => entries F k j * entries F k i)) by (intros; unfold sum3; ring).
    intros i j Hi Hj. destruct i as [|[|[|]]]; try lia; destruct j as [|[|[|]]]; try lia; unfold delta; cbn [Nat.eqb]; try assumption; rewrite S; assumption.
  - rewrite svk_density in Z by exact K. set (E := of_entries (fun i j => / 2 * (sum3 (fun k => entries F k i * entries F k j) - delta i j))) in *.
    assert (HZ : hooke m E = 0) by lra.
    assert (DD : double_dot E E = 0).
    { destruct H as [H1 H2]. pose proof (hooke_scalar (mu m) (lambda m) (entries E 0 0) (entries E 1 1) (entries E 2 2) (double_dot E E) H1 H2 (double_dot_bound E)) as [_ HS].
      apply HS. exact HZ. }
    intros i j Hi Hj. pose proof (double_dot_zero E i j DD Hi Hj) as EZ. unfold E in EZ. rewrite entries_of_entries in EZ by assumption. lra.
Qed.
Lemma density_unstretched m F : matrix3 F -> cauchy_green F = Id3 -> (kind_of m = NeoHookean -> 0 < det F) -> strain_energy_density m (det F) (cauchy_green F) = 0.
Proof.
  intros M C P. destruct (kind_of m) eqn:K.
  - assert (D : det F = 1).
    { pose proof (gram_det (entries F)) as G. cbv beta in G. rewrite !(isometry_gram F) in G by (assumption || lia). unfold delta in G. cbn [Nat.eqb] in G.
      specialize (P eq_refl). rewrite (det_entries F M) in *. nra. }
    rewrite D, C. apply C54_rest_state.
  - rewrite svk_density by exact K.
    replace (of_entries _) with (of_entries (fun _ _ => 0)).
    + unfold hooke, trace, double_dot, sum3. change e with entries. rewrite !entries_of_entries by lia. ring.
    + apply of_entries_ext. intros i j Hi Hj. rewrite (isometry_gram F i j C Hi Hj). ring.
Qed.
Lemma unstretched_rotation F : matrix3 F -> cauchy_green F = Id3 -> 0 < det F -> rotation F.
Proof.
  intros M C P. split; [exact M|]. split; [exact C|].
  pose proof (gram_det (entries F)) as G. cbv beta in G. rewrite !(isometry_gram F) in G by (assumption || lia). unfold delta in G. cbn [Nat.eqb] in G.
  rewrite (det_entries F M) in *. nra.
Qed.

(** ** The sum *)
Section Body.
Context (d : domain).
Hypothesis Sd : solid d.
Hypothesis RG : regular d.

Lemma node_gradient x row q : In row (connectivity d) -> In q (gauss_nodes (kind d)) ->
  gradient x row (the_node d row q) = deformation_gradient d x row (fst q).
Proof. intros Hr Hq. exact (gradient_is_displacement d row q Sd Hr x). Qed.
Lemma gradient_matrix3 x row xi : matrix3 (deformation_gradient d x row xi).
Proof. apply of_entries_matrix3. Qed.
Lemma energy_sum m x : field (length (positions d)) 3 x -> getPotentialEnergy m d x = stored_energy m d x.
Proof.
  intros Fx. unfold getPotentialEnergy. rewrite (proj1 Fx), Nat.eqb_refl. cbn [negb]. apply Rsum_ext. intros row Hr. destruct (solid_row d row Sd Hr) as [Hl Hi].
  rewrite (element_energy_spec m d x row (length (positions d))); [|apply Sd|apply Sd|exact Fx|exact Hl|exact Hi|exact (proj1 (Forall_forall _ _) RG row Hr)].
  unfold quad. rewrite get_gauss_nodes_alt, map_map. apply Rsum_ext. intros q Hq. rewrite node_gradient by assumption.
  change (jacobian_determinant (the_node d row q)) with (Rabs (local_volume d row (fst q))). change (weight (the_node d row q)) with (snd q). cbv zeta. ring.
Qed.
Lemma weight_positive row q : In row (connectivity d) -> In q (gauss_nodes (kind d)) -> 0 < snd q * Rabs (local_volume d row (fst q)).
Proof.
  intros Hr Hq. pose proof (node_weight d row q Hr Hq RG) as P. cbn [jacobian_determinant weight the_node] in P. unfold local_volume.
  rewrite Rmult_comm. exact P.
Qed.
Lemma gradient_volume x row q : In row (connectivity d) -> In q (gauss_nodes (kind d)) -> not_inverted d x -> 0 < det (deformation_gradient d x row (fst q)).
Proof.
  intros Hr Hq NI. rewrite <- node_gradient by assumption. apply (quad_positive d x row _ Sd NI Hr). unfold quad. rewrite get_gauss_nodes_alt. apply in_map. exact Hq.
Qed.
Lemma resists_at m x row q : resists m d x -> In row (connectivity d) -> In q (gauss_nodes (kind d)) -> resisting m (det (deformation_gradient d x row (fst q))).
Proof.
  unfold resists, resisting. intros H Hr Hq. destruct (kind_of m); [|exact H]. destruct H as (A & B & C). split; [exact A|]. split; [exact B|].
  apply gradient_volume; assumption.
Qed.
Lemma stored_nonneg m x : resists m d x -> 0 <= stored_energy m d x.
Proof.
  intros H. apply Rsum_nonneg. intros row Hr. apply Rsum_nonneg. intros q Hq. cbv zeta. apply Rmult_le_pos.
  - left. apply weight_positive; assumption.
  - apply density_nonneg; [apply gradient_matrix3|]. apply resists_at; assumption.
Qed.
Lemma stored_terms m x row q : resists m d x -> stored_energy m d x = 0 -> In row (connectivity d) -> In q (gauss_nodes (kind d)) ->
  strain_energy_density m (det (deformation_gradient d x row (fst q))) (cauchy_green (deformation_gradient d x row (fst q))) = 0.
Proof.
  intros H Z Hr Hq.
  assert (T : forall r g, In r (connectivity d) -> In g (gauss_nodes (kind d)) -> 0 <= snd g * Rabs (local_volume d r (fst g)) *
    strain_energy_density m (det (deformation_gradient d x r (fst g))) (cauchy_green (deformation_gradient d x r (fst g)))).
  { intros r g H1 H2. apply Rmult_le_pos; [left; apply weight_positive; assumption|]. apply density_nonneg; [apply gradient_matrix3|]. apply resists_at; assumption. }
  unfold stored_energy in Z. cbv zeta in Z.
  pose proof (Rsum_all_zero _ _ _ (fun r Hr' => Rsum_nonneg _ _ _ (fun g Hg => T r g Hr' Hg)) Z row Hr) as Z1. cbv beta in Z1.
  pose proof (Rsum_all_zero _ _ _ (fun g Hg => T row g Hr Hg) Z1 q Hq) as Z2. cbv beta in Z2.
  apply Rmult_integral in Z2. destruct Z2 as [Z2|Z2]; [|exact Z2]. pose proof (weight_positive row q Hr Hq). lra.
Qed.
Lemma stored_zero m x : resists m d x -> (stored_energy m d x = 0 <-> unstretched d x).
Proof.
  intros H. split.
  - intros Z row q Hr Hq. apply (density_zero m); [apply gradient_matrix3|apply resists_at; assumption|]. apply stored_terms; assumption.
  - intros U. unfold stored_energy. apply Rsum_zero. intros row Hr. apply Rsum_zero.
    intros q Hq. cbv zeta. rewrite density_unstretched; [ring|apply gradient_matrix3|exact (U row q Hr Hq)|].
    intros K. unfold resists in H. rewrite K in H. apply gradient_volume; [assumption|assumption|apply H].
Qed.
Lemma unstretched_no_energy m x : unstretched d x -> (kind_of m = NeoHookean -> not_inverted d x) -> stored_energy m d x = 0.
Proof.
  intros U NI. unfold stored_energy. apply Rsum_zero. intros row Hr. apply Rsum_zero.
  intros q Hq. cbv zeta. rewrite density_unstretched; [ring|apply gradient_matrix3|exact (U row q Hr Hq)|]. intros K. apply gradient_volume; [assumption|assumption|exact (NI K)].
Qed.

(** ** Forces *)
Lemma unstretched_stress m F : matrix3 F -> cauchy_green F = Id3 -> (kind_of m = NeoHookean -> 0 < det F) -> forall c k, (c < 3)%nat -> (k < 3)%nat -> entries (stress_power m F) c k = 0.
Proof.
  intros M C P c k Hc Hk.
  assert (S : PK2_stress m (det F) (cauchy_green F) = of_entries (fun _ _ => 0)).
  { destruct (kind_of m) eqn:K.
    - pose proof (unstretched_rotation F M C (P eq_refl)) as (_ & _ & D). rewrite D, C. apply C54_rest_state.
    - rewrite C. pose proof (proj2 (C54_rest_state m)) as R. unfold PK2_stress in *. rewrite K in *. exact R. }
  unfold stress_power. rewrite S. unfold product. rewrite entries_of_entries by assumption. unfold sum3. rewrite !entries_of_entries by lia. ring.
Qed.
Lemma unstretched_no_force m x f : unstretched d x -> (kind_of m = NeoHookean -> not_inverted d x) ->
  field (length (positions d)) 3 x -> field (length (positions d)) 3 f -> addForce m d x f = Some f.
Proof.
  intros U NI Fx Ff. destruct (addForce_spec m d x f _ (proj1 Sd) eq_refl (proj1 Fx) Ff) as (f' & E & Ff' & S). rewrite E. f_equal.
  assert (P : forall p c, (c < 3)%nat -> entries f' p c = entries f p c).
  { intros p c Hc. rewrite S by exact Hc. rewrite Rsum_zero; [ring|]. intros row Hr. apply Rsum_zero.
    intros a Ha. apply in_seq in Ha. destruct (Nat.eqb (nth a row 0%nat) p); [|reflexivity]. destruct (solid_row d row Sd Hr) as [Hl _].
    assert (Lg : length (gather x row) = NumberOfNodes (kind d)) by (unfold gather; rewrite map_length; exact Hl).
    destruct (element_forces_spec m (gather x row) (quad d row) _ Lg (quad_sound d row)) as (_ & _ & EF). rewrite EF.
    apply Rsum_zero. intros g Hg.
    destruct (gauss_forces_spec m (gather x row) g _ Lg (proj1 (Forall_forall _ _) (quad_sound d row) g Hg)) as (_ & _ & GF). rewrite GF by lia.
    unfold quad in Hg. rewrite get_gauss_nodes_alt in Hg. apply in_map_iff in Hg. destruct Hg as (q & <- & Hq).
    rewrite <- Hl. fold (gradient x row (the_node d row q)). rewrite node_gradient by assumption.
    unfold sum3. rewrite !unstretched_stress; try lia; try (apply gradient_matrix3); try (exact (U row q Hr Hq)); try (intros K; apply gradient_volume; [assumption|assumption|exact (NI K)]). ring. }
  apply (nth_ext _ _ [] []); [rewrite (proj1 Ff'), (proj1 Ff); reflexivity|]. intros p Hp. rewrite (proj1 Ff') in Hp.
  pose proof (field_row _ f p Ff Hp) as L1. pose proof (field_row _ f' p Ff' Hp) as L2.
  apply (nth_ext _ _ 0 0); [lia|]. intros c Hc. rewrite L2 in Hc. exact (P p c Hc).
Qed.

(** ** Affine motions *)
Lemma placed_entries t Q p c : length t = 3%nat -> matrix3 Q -> (p < length (positions d))%nat -> (c < 3)%nat ->
  entries (placed t Q (positions d)) p c = nth c t 0 + sum3 (fun l => entries Q c l * entries (positions d) p l).
Proof.
  intros Lt MQ Hp Hc. unfold placed, entries at 1. rewrite (nth_indep _ [] (vadd t (matvec Q []))) by (rewrite map_length; exact Hp).
  rewrite (map_nth (fun p => vadd t (matvec Q p))).
  assert (LP : length (nth p (positions d) []) = 3%nat) by (apply (proj1 (Forall_forall _ _) (proj2 (proj2 (proj2 Sd)))); apply nth_In; exact Hp).
  unfold entries. destruct (length3 _ Lt) as (t0 & t1 & t2 & ->), (length3 _ LP) as (p0 & p1 & p2 & ->).
  destruct (matrix3_cases Q MQ) as (a & b & c' & d' & e' & f & g & h & i & ->). unfold vadd, matvec, vdot, sum3.
  destruct c as [|[|[|]]]; try lia; cbn; ring.
Qed.
Lemma placed_field t Q : length t = 3%nat -> matrix3 Q -> field (length (positions d)) 3 (placed t Q (positions d)).
Proof.
  intros Lt MQ. split; [unfold placed; apply map_length|]. apply Forall_forall. intros r Hr. unfold placed in Hr. apply in_map_iff in Hr. destruct Hr as (p & <- & _).
  destruct (length3 _ Lt) as (t0 & t1 & t2 & ->), (matrix3_cases Q MQ) as (a & b & c' & d' & e' & f & g & h & i & ->). reflexivity.
Qed.
Lemma matrix3_of_entries Q : matrix3 Q -> of_entries (entries Q) = Q.
Proof. intros M. destruct (matrix3_cases Q M) as (a & b & c & d' & e' & f & g & h & i & ->). reflexivity. Qed.
Lemma placed_gradient t Q row q : length t = 3%nat -> matrix3 Q -> In row (connectivity d) -> In q (gauss_nodes (kind d)) ->
  deformation_gradient d (placed t Q (positions d)) row (fst q) = Q.
Proof.
  intros Lt MQ Hr Hq. rewrite <- node_gradient by assumption. rewrite <- (matrix3_of_entries Q MQ) at 2.
  apply (gradient_affine d row q Sd Hr Hq _ t); [exact RG|]. intros p c Hp Hc. apply placed_entries; assumption.
Qed.
Lemma placed_energy m t Q : length t = 3%nat -> matrix3 Q ->
  stored_energy m d (placed t Q (positions d)) = strain_energy_density m (det Q) (cauchy_green Q) * rest_volume d.
Proof.
  intros Lt MQ. unfold stored_energy, rest_volume. rewrite <- Rsum_scal_l. apply Rsum_ext. intros row Hr. rewrite <- Rsum_scal_l. apply Rsum_ext. intros q Hq. cbv zeta.
  rewrite placed_gradient by assumption. ring.
Qed.
Lemma placed_volume t Q row q : length t = 3%nat -> matrix3 Q -> In row (connectivity d) -> In q (gauss_nodes (kind d)) ->
  local_volume (moved d (placed t Q (positions d))) row (fst q) = det Q * local_volume d row (fst q).
Proof.
  intros Lt MQ Hr Hq. pose proof (placed_gradient t Q row q Lt MQ Hr Hq) as G. rewrite <- node_gradient in G by assumption.
  destruct (solid_row d row Sd Hr) as [Hl _].
  pose proof (gradient_det d row q (proj1 (proj2 Sd)) Hl (proj1 (Forall_forall _ _) (proj1 (Forall_forall _ _) RG row Hr) q Hq) (placed t Q (positions d))) as D.
  unfold gradient in G. rewrite Hl in G. rewrite G in D. unfold local_volume. symmetry. exact D.
Qed.
Lemma placed_not_inverted t Q : length t = 3%nat -> matrix3 Q -> 0 < det Q -> not_inverted d (placed t Q (positions d)).
Proof.
  intros Lt MQ P. apply Forall_forall. intros row Hr. apply Forall_forall. intros q Hq. rewrite placed_volume by assumption.
  pose proof (proj1 (Forall_forall _ _) (proj1 (Forall_forall _ _) RG row Hr) q Hq) as N. cbv beta in N. pose proof (Rsqr_pos_lt _ N) as S. unfold Rsqr in S. nra.
Qed.
Lemma placed_unstretched t Q : length t = 3%nat -> isometry Q -> unstretched d (placed t Q (positions d)).
Proof. intros Lt [MQ C] row q Hr Hq. rewrite placed_gradient by assumption. exact C. Qed.
End Body.
