(** Barriers against inversion, unbounded energies, and mechanisms of the quadratic elements (C96). *)

From Coq Require Import ZArith Reals Lra Lia Psatz.
From Coquelicot Require Import Coquelicot.
From Coq Require Import List Arith Bool.
From Verif Require Import GridGeoModel ShapeModel ShapeSpec ShapeProofs ShapeFieldProofs ShapeGaussProofs LinAlg LinAlgProofs RectSpec NewtonLocalProofs BarycentricModel MappingSpec MappingProofs TensorModel TensorSpec
  MaterialModel MaterialSpec MaterialProofs MaterialProperties SparseModel SparseProofs Sums HyperModel HyperSpec HyperProofs HyperProofs2 HyperProofs3 HyperProofs4 HyperProperties
  SpectrumProofs StabilitySpec StabilityProofs StabilityProofs2 StabilityProofs3 StabilityProofs4 StabilityProofs5 EnergySpec EnergyProofs EnergyProofs2.
Import ListNotations.
Open Scope R_scope.

(** ** Sums *)
Lemma term_below (A : Type) (f : A -> R) l a : (forall b, In b l -> 0 <= f b) -> In a l -> f a <= Rsum (map f l).
Proof.
  induction l as [|b l IH]; intros H Hi; [destruct Hi|]; destruct Hi as [->|Hi]; cbn [map Rsum fold_right]; change (fold_right Rplus 0 (map f l)) with (Rsum (map f l)).
  - pose proof (Rsum_nonneg _ f l (fun c Hc => H c (or_intror Hc))). lra.
  - pose proof (H b (or_introl eq_refl)). specialize (IH (fun c Hc => H c (or_intror Hc)) Hi). lra.
Qed.
Lemma smallest (A : Type) (f : A -> R) l : (forall a, In a l -> 0 < f a) -> exists w, 0 < w /\ forall a, In a l -> w <= f a.
Proof.
  induction l as [|b l IH]; intros H; [exists 1; split; [lra|intros a []]|].
  destruct (IH (fun c Hc => H c (or_intror Hc))) as (w & Pw & Hw). exists (Rmin w (f b)). split; [apply Rmin_glb_lt; [exact Pw|apply H; left; reflexivity]|].
  intros a [<-|Ha]; [apply Rmin_r|]. eapply Rle_trans; [apply Rmin_l|]. apply Hw. exact Ha.
Qed.
Lemma positive_sum (A : Type) (f : A -> R) l : l <> [] -> (forall a, In a l -> 0 < f a) -> 0 < Rsum (map f l).
Proof.
  intros N H. destruct l as [|a l]; [contradiction|]. eapply Rlt_le_trans; [apply (H a); left; reflexivity|].
  apply (term_below _ f (a :: l) a); [|left; reflexivity]. intros b Hb. left. apply H. exact Hb.
Qed.

Section Body.
Context (d : domain).
Hypothesis Sd : solid d.
Hypothesis RG : regular d.
Lemma some_gauss : gauss_nodes (kind d) <> [].
Proof. destruct Sd as (_ & CD & _). destruct (kind d); try discriminate CD; discriminate. Qed.
Lemma volume_positive : connectivity d <> [] -> 0 < rest_volume d.
Proof.
  intros N. apply positive_sum; [exact N|]. intros row Hr. apply positive_sum; [apply some_gauss|]. intros q Hq. apply weight_positive; assumption.
Qed.
Lemma smallest_weight : exists w, 0 < w /\ forall row q, In row (connectivity d) -> In q (gauss_nodes (kind d)) -> w <= snd q * Rabs (local_volume d row (fst q)).
Proof.
  destruct (smallest _ (fun rq : list nat * (list R * R) => snd (snd rq) * Rabs (local_volume d (fst rq) (fst (snd rq)))) (list_prod (connectivity d) (gauss_nodes (kind d)))) as (w & Pw & Hw).
  - intros [row q] H. apply in_prod_iff in H. apply weight_positive; tauto.
  - exists w. split; [exact Pw|]. intros row q Hr Hq. apply (Hw (row, q)). apply in_prod; assumption.
Qed.

(** ** The barrier of the Neo-Hookean law *)
Lemma neo_barrier m F : kind_of m = NeoHookean -> matrix3 F -> 0 < mu m -> 0 <= lambda m -> 
  - mu m * ln (det F) - 3 / 2 * mu m <= strain_energy_density m (det F) (cauchy_green F).
Proof.
  intros K M Hm Hl. rewrite neo_density by assumption. pose proof (gram_nonneg (entries F) 0). pose proof (gram_nonneg (entries F) 1). pose proof (gram_nonneg (entries F) 2).
  cbv beta in *. unfold sum3 at 1. pose proof (Rle_0_sqr (ln (det F))) as Q. unfold Rsqr in Q.
  assert (0 <= lambda m / 2 * (ln (det F) * ln (det F))) by (apply Rmult_le_pos; lra).
  assert (0 <= mu m / 2 * (sum3 (fun k => entries F k 0 * entries F k 0) + sum3 (fun k => entries F k 1 * entries F k 1) + sum3 (fun k => entries F k 2 * entries F k 2))) by (apply Rmult_le_pos; lra).
  lra.
Qed.
Lemma gradient_volumes x row q : In row (connectivity d) -> In q (gauss_nodes (kind d)) ->
  local_volume (moved d x) row (fst q) = det (deformation_gradient d x row (fst q)) * local_volume d row (fst q).
Proof.
  intros Hr Hq. destruct (solid_row d row Sd Hr) as [Hl _].
  pose proof (gradient_det d row q (proj1 (proj2 Sd)) Hl (proj1 (Forall_forall _ _) (proj1 (Forall_forall _ _) RG row Hr) q Hq) x) as D.
  rewrite <- (node_gradient d Sd x row q) by assumption. unfold gradient. rewrite Hl. symmetry. exact D.
Qed.
Lemma barrier m B : kind_of m = NeoHookean -> 0 < mu m -> 0 <= lambda m -> exists s, 0 < s /\ forall x, field (length (positions d)) 3 x -> not_inverted d x -> stored_energy m d x <= B ->
  forall row q, In row (connectivity d) -> In q (gauss_nodes (kind d)) -> s * Rabs (local_volume d row (fst q)) <= Rabs (local_volume (moved d x) row (fst q)).
Proof.
  intros K Hm Hl. destruct smallest_weight as (w & Pw & Hw). set (B' := Rmax B 0). exists (exp (- (B' / (mu m * w) + 3 / 2))). split; [apply exp_pos|].
  intros x Fx NI HB row q Hr Hq. rewrite gradient_volumes by assumption. rewrite Rabs_mult. apply Rmult_le_compat_r; [apply Rabs_pos|].
  set (F := deformation_gradient d x row (fst q)). assert (PF : 0 < det F) by (apply gradient_volume; assumption). rewrite (Rabs_pos_eq (det F)) by lra.
  assert (RS : resists m d x) by (unfold resists; rewrite K; tauto).
  set (W := fun r (g : list R * R) => strain_energy_density m (det (deformation_gradient d x r (fst g))) (cauchy_green (deformation_gradient d x r (fst g)))).
  assert (T : forall r g, In r (connectivity d) -> In g (gauss_nodes (kind d)) -> 0 <= snd g * Rabs (local_volume d r (fst g)) * W r g).
  { intros r g H1 H2. apply Rmult_le_pos; [left; apply weight_positive; assumption|]. apply density_nonneg; [apply gradient_matrix3|]. apply resists_at; assumption. }
  assert (E : snd q * Rabs (local_volume d row (fst q)) * W row q <= B).
  { eapply Rle_trans; [|exact HB]. unfold stored_energy. cbv zeta. fold W.
    eapply Rle_trans; [apply (term_below _ (fun g => snd g * Rabs (local_volume d row (fst g)) * W row g) (gauss_nodes (kind d)) q); [intros g Hg; apply T; assumption|exact Hq]|].
    apply (term_below _ (fun r => Rsum (map (fun g => snd g * Rabs (local_volume d r (fst g)) * W r g) (gauss_nodes (kind d)))) (connectivity d) row); [|exact Hr].
    intros r Hr'. apply Rsum_nonneg. intros g Hg. apply T; assumption. }
  assert (WN : 0 <= W row q) by (apply density_nonneg; [apply gradient_matrix3|apply resists_at; assumption]).
  assert (WB : W row q <= B' / w).
  { apply (Rmult_le_reg_l w); [exact Pw|]. replace (w * (B' / w)) with B' by (field; lra). eapply Rle_trans; [|apply Rmax_l]. eapply Rle_trans; [|exact E].
    apply Rmult_le_compat_r; [exact WN|]. apply Hw; assumption. }
  pose proof (neo_barrier m F K (gradient_matrix3 d x row (fst q)) Hm Hl) as NB. change (strain_energy_density m (det F) (cauchy_green F)) with (W row q) in NB.
  rewrite <- (exp_ln (det F)) at 1 by exact PF. destruct (Rle_dec (- (B' / (mu m * w) + 3 / 2)) (ln (det F))) as [L|L].
  - destruct (Rle_lt_or_eq_dec _ _ L) as [L'|L']; [left; apply exp_increasing; exact L'|rewrite L'; lra].
  - exfalso. apply L. apply (Rmult_le_reg_l (mu m)); [exact Hm|]. replace (mu m * - (B' / (mu m * w) + 3 / 2)) with (- (B' / w) - 3 / 2 * mu m) by (field; lra). lra.
Qed.

(** ** Uniform changes of volume with a negative lambda *)
Lemma diagonal_matrix a b c : matrix3 (diagonal a b c).
Proof. split; [reflexivity|repeat constructor]. Qed.
Lemma diagonal_det a b c : det (diagonal a b c) = a * b * c.
Proof. unfold diagonal, det. ring. Qed.
Lemma diagonal_entries a b c i j : (i < 3)%nat -> (j < 3)%nat -> entries (diagonal a b c) i j = if Nat.eqb i j then nth i [a; b; c] 0 else 0.
Proof. intros Hi Hj. unfold entries, diagonal. destruct i as [|[|[|]]]; try lia; destruct j as [|[|[|]]]; try lia; reflexivity. Qed.
Lemma neo_dilation m k : kind_of m = NeoHookean -> 0 < mu m -> 0 <= k ->
  strain_energy_density m (det (diagonal (exp (- k)) (exp (- k)) (exp (- k)))) (cauchy_green (diagonal (exp (- k)) (exp (- k)) (exp (- k)))) <= 3 * mu m * k + 9 / 2 * lambda m * (k * k).
Proof.
  intros K Hm Hk. rewrite neo_density by (assumption || apply diagonal_matrix). rewrite diagonal_det. unfold sum3. rewrite !diagonal_entries by lia. cbn [Nat.eqb nth].
  pose proof (exp_pos (- k)) as P. rewrite !ln_mult by (try apply Rmult_lt_0_compat; exact P). rewrite ln_exp.
  assert (U : exp (- k) <= 1) by (rewrite <- exp_0; destruct (Rle_lt_or_eq_dec _ _ Hk) as [H|H]; [left; apply exp_increasing; lra|rewrite <- H, Ropp_0; lra]).
  assert (S : exp (- k) * exp (- k) <= 1) by nra. nra.
Qed.
Lemma unbounded_below m B : kind_of m = NeoHookean -> 0 < mu m -> lambda m < 0 -> connectivity d <> [] ->
  exists s, 0 < s < 1 /\ stored_energy m d (placed [0; 0; 0] (diagonal s s s) (positions d)) < B.
Proof.
  intros K Hm Hl N. pose proof (volume_positive N) as PV. set (V := rest_volume d) in *. set (L := - lambda m).
  set (k := 1 + 2 / (9 * L) * (3 * mu m + Rabs B / V + 1)). assert (PL : 0 < L) by (unfold L; lra).
  assert (PB : 0 <= Rabs B / V) by (apply Rdiv_le_0_compat; [apply Rabs_pos|exact PV]).
  assert (K1 : 1 <= k). { unfold k. assert (0 <= 2 / (9 * L) * (3 * mu m + Rabs B / V + 1)); [|lra]. apply Rmult_le_pos; [|lra]. apply Rdiv_le_0_compat; lra. }
  exists (exp (- k)). split.
  - split; [apply exp_pos|]. rewrite <- exp_0. apply exp_increasing. lra.
  - rewrite placed_energy by (assumption || reflexivity || apply diagonal_matrix). fold V.
    pose proof (neo_dilation m k K Hm ltac:(lra)) as D.
    assert (Q : 3 * mu m + Rabs B / V + 1 <= 9 / 2 * L * k).
    { unfold k. replace (9 / 2 * L * (1 + 2 / (9 * L) * (3 * mu m + Rabs B / V + 1))) with (9 / 2 * L + (3 * mu m + Rabs B / V + 1)) by (field; lra). lra. }
    assert (T : 3 * mu m * k + 9 / 2 * lambda m * (k * k) <= - (Rabs B / V + 1)).
    { replace (lambda m) with (- L) by (unfold L; ring). nra. }
    apply Rle_lt_trans with (- (Rabs B / V + 1) * V).
    + apply Rmult_le_compat_r; lra.
    + replace (- (Rabs B / V + 1) * V) with (- Rabs B - V) by (field; lra). pose proof (Rle_abs (- B)) as A. rewrite Rabs_Ropp in A. lra.
Qed.

(** ** Flattened and mirrored Saint Venant-Kirchhoff bodies *)
Lemma svk_flat m : kind_of m = SaintVenantKirchhoff ->
  strain_energy_density m (det (diagonal 1 1 0)) (cauchy_green (diagonal 1 1 0)) = lambda m / 8 + mu m / 4.
Proof.
  intros K. rewrite svk_density by exact K. unfold hooke, trace, double_dot, sum3. change e with entries. rewrite !entries_of_entries by lia. rewrite !diagonal_entries by lia.
  unfold delta. cbn [Nat.eqb nth]. field.
Qed.
Lemma mirror_isometry : isometry (diagonal 1 1 (-1)).
Proof.
  split; [apply diagonal_matrix|]. apply cauchy_green_is_Id. intros i j Hi Hj. unfold sum3. rewrite !diagonal_entries by lia. unfold delta.
  destruct i as [|[|[|]]]; try lia; destruct j as [|[|[|]]]; try lia; cbn [Nat.eqb nth]; ring.
Qed.
End Body.
