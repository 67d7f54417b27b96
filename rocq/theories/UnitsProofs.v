(** Proofs for C108: hyperelastic force fields in other units. *)

From Coq Require Import ZArith Reals Lra Lia.
From Coquelicot Require Import Coquelicot.
From Coq Require Import List Arith Bool.
From Verif Require Import GridGeoModel ShapeModel ShapeSpec ShapeProofs ShapeFieldProofs LinAlg LinAlgProofs BarycentricModel MappingSpec MappingProofs TensorModel TensorSpec
  MaterialModel MaterialSpec MaterialProofs SparseModel SparseProofs Sums TractionModel TractionProofs HyperModel HyperSpec HyperProofs HyperProofs2 HyperProofs3 HyperProofs4 HyperProperties
  EnergySpec EnergyProofs UnitsSpec.
From Verif Require CorotProofs3 ObjectivityProofs2.
Import ListNotations.
Open Scope R_scope.

Lemma vscale_nth a v k : nth k (vscale a v) 0 = a * nth k v 0.
Proof. unfold vscale. rewrite <- (map_nth (Rmult a)). f_equal. ring. Qed.
Lemma scaled_row a X p : nth p (scaled a X) [] = vscale a (nth p X []).
Proof. unfold scaled. exact (map_nth (vscale a) X [] p). Qed.
Lemma scaled_entries a X p c : entries (scaled a X) p c = a * entries X p c.
Proof. unfold entries. rewrite scaled_row. apply vscale_nth. Qed.
Lemma scaled_field a N X : field N 3 X -> field N 3 (scaled a X).
Proof. intros [L F]. split; [unfold scaled; rewrite map_length; exact L|]. apply Forall_forall. intros v Hv. apply in_map_iff in Hv. destruct Hv as (w & <- & Hw). unfold vscale. rewrite map_length. exact (proj1 (Forall_forall _ _) F w Hw). Qed.
Lemma gather_scaled a X row : gather (scaled a X) row = scaled a (gather X row).
Proof. unfold gather, scaled at 2. rewrite map_map. apply map_ext. intros i. apply scaled_row. Qed.
Lemma jacobian_scaled a e nodes xi : jacobian 3 e (scaled a nodes) xi = scaled a (jacobian 3 e nodes xi).
Proof.
  unfold jacobian, scaled at 2. rewrite map_map. apply map_ext. intros c. unfold vscale. rewrite map_map. apply map_ext. intros k.
  generalize (dL e xi). induction nodes as [|v nodes IH]; intros D; [cbn; ring|]. destruct D as [|u D]; [cbn; ring|]. cbn [scaled map map2]. unfold Rsum in *. cbn [fold_right]. specialize (IH D). unfold scaled in IH. rewrite IH, vscale_nth. ring.
Qed.
Lemma det_scaled a M : matrix3 M -> det (scaled a M) = a * a * a * det M.
Proof. intros H. destruct (matrix3_cases M H) as (m0 & m1 & m2 & m3 & m4 & m5 & m6 & m7 & m8 & ->). cbn. ring. Qed.
Lemma inverse_scaled a M : matrix3 M -> a <> 0 -> det M <> 0 -> inverse (scaled a M) = scaled (/ a) (inverse M).
Proof.
  intros H Ha D. unfold inverse. rewrite det_scaled by exact H. revert D. generalize (det M). intros D HD. destruct (matrix3_cases M H) as (m0 & m1 & m2 & m3 & m4 & m5 & m6 & m7 & m8 & ->).
  cbn [scaled map vscale]. repeat (apply f_equal2; [repeat (apply f_equal2; [field; split; assumption|]); reflexivity|]); reflexivity.
Qed.

(** ** Materials *)
Lemma stress_scaled b m J C : matrix3 C -> PK2_stress (in_pressure_unit b m) J C = scaled b (PK2_stress m J C).
Proof.
  intros H. destruct (matrix3_cases C H) as (m0 & m1 & m2 & m3 & m4 & m5 & m6 & m7 & m8 & ->).
  unfold PK2_stress, in_pressure_unit. cbn [kind_of mu lambda]. destruct (kind_of m).
  - set (D := inverse _). assert (MD : matrix3 D) by (split; [reflexivity|repeat constructor]). destruct (matrix3_cases D MD) as (d0 & d1 & d2 & d3 & d4 & d5 & d6 & d7 & d8 & ->).
    cbn. repeat (apply f_equal2; [repeat (apply f_equal2; [ring|]); reflexivity|]); reflexivity.
  - cbn. repeat (apply f_equal2; [repeat (apply f_equal2; [unfold trace, e; cbn; field|]); reflexivity|]); reflexivity.
Qed.
Lemma density_scaled b m J C : strain_energy_density (in_pressure_unit b m) J C = b * strain_energy_density m J C.
Proof. unfold strain_energy_density, in_pressure_unit. cbn [kind_of mu lambda]. destruct (kind_of m); cbv zeta; field. Qed.
Lemma power_scaled b m F i j : matrix3 F -> (i < 3)%nat -> (j < 3)%nat -> entries (stress_power (in_pressure_unit b m) F) i j = b * entries (stress_power m F) i j.
Proof.
  intros H Hi Hj. unfold stress_power, product. rewrite !entries_of_entries by assumption. rewrite stress_scaled by apply of_entries_matrix3. unfold sum3. rewrite !scaled_entries. ring.
Qed.

(** ** Force fields *)
Section Units.
Context (a b : R) (m : material) (d : domain) (N : nat).
Hypothesis Ha : 0 < a.
Hypothesis Sd : solid d.
Hypothesis RG : regular d.
Hypothesis LN : length (positions d) = N.
Let d' := in_length_unit a d.
Let m' := in_pressure_unit b m.

Lemma unit_solid : solid d'.
Proof.
  destruct Sd as (W & Dm & F). split; [|split; [exact Dm|]].
  - unfold well_formed, d', in_length_unit, moved, scaled in *. cbn [kind positions connectivity] in *. rewrite map_length. exact W.
  - unfold d', in_length_unit, moved. cbn [positions]. pose proof (scaled_field a _ _ F) as [L G]. split; [reflexivity|exact G].
Qed.
Lemma unit_length : length (positions d') = N.
Proof. unfold d', in_length_unit, moved, scaled. cbn [positions]. rewrite map_length. exact LN. Qed.
Lemma unit_J row g : rest_J d' row g = scaled a (rest_J d row g).
Proof. unfold rest_J. change (kind d') with (kind d). change (nodes_of_element d' row) with (gather (scaled a (positions d)) row). rewrite gather_scaled. apply jacobian_scaled. Qed.
Lemma unit_volume row xi : In row (connectivity d) -> local_volume d' row xi = a * a * a * local_volume d row xi.
Proof.
  intros Hr. destruct (solid_row d row Sd Hr) as [Hl _]. pose proof (unit_J row (xi, 0)) as E. unfold rest_J in E. cbn [fst] in E. unfold local_volume. rewrite E. apply det_scaled.
  exact (rest_J_matrix d row (xi, 0) (proj1 (proj2 Sd)) Hl).
Qed.
Lemma unit_regular : regular d'.
Proof.
  apply Forall_forall. intros row Hr. apply Forall_forall. intros g Hg. change (connectivity d') with (connectivity d) in Hr. change (kind d') with (kind d) in Hg. rewrite unit_volume by exact Hr.
  pose proof (proj1 (Forall_forall _ _) (proj1 (Forall_forall _ _) RG row Hr) g Hg) as NZ. cbv beta in NZ. repeat apply Rmult_integral_contrapositive_currified; lra || exact NZ.
Qed.
Lemma unit_node row g n k : In row (connectivity d) -> In g (gauss_nodes (kind d)) -> (n < NumberOfNodes (kind d))%nat -> (k < 3)%nat ->
  entries (dN_dx (the_node d' row g)) n k = / a * entries (dN_dx (the_node d row g)) n k.
Proof.
  intros Hr Hg Hn Hk. destruct (solid_row d row Sd Hr) as [Hl _]. rewrite (the_node_entries d' row g) by (first [assumption | apply Sd]). change (kind d') with (kind d). rewrite unit_J.
  rewrite inverse_scaled; [|exact (rest_J_matrix d row g (proj1 (proj2 Sd)) Hl)|lra|exact (proj1 (Forall_forall _ _) (proj1 (Forall_forall _ _) RG row Hr) g Hg)].
  rewrite (the_node_entries d row g) by (first [assumption | apply Sd]). unfold sum3. rewrite !scaled_entries. ring.
Qed.
Lemma unit_det row g : In row (connectivity d) -> jacobian_determinant (the_node d' row g) = a * a * a * jacobian_determinant (the_node d row g).
Proof.
  intros Hr. destruct (solid_row d row Sd Hr) as [Hl _]. cbn [jacobian_determinant the_node]. rewrite unit_J, det_scaled by exact (rest_J_matrix d row g (proj1 (proj2 Sd)) Hl).
  rewrite Rabs_mult, (Rabs_pos_eq (a * a * a)); [reflexivity|]. repeat apply Rmult_le_pos; lra.
Qed.
Lemma unit_gradient x row g : In row (connectivity d) -> In g (gauss_nodes (kind d)) ->
  of_entries (grad (NumberOfNodes (kind d)) (entries (gather (scaled a x) row)) (entries (dN_dx (the_node d' row g)))) =
  of_entries (grad (NumberOfNodes (kind d)) (entries (gather x row)) (entries (dN_dx (the_node d row g)))).
Proof.
  intros Hr Hg. unfold of_entries. apply map_ext_in. intros i Hi. apply map_ext_in. intros j Hj. apply in_seq in Hi, Hj. unfold grad. apply Rsum_ext. intros n Hn. apply in_seq in Hn.
  rewrite gather_scaled, scaled_entries, unit_node by (assumption || lia). field. lra.
Qed.
Lemma unit_forces x row n c : In row (connectivity d) -> (n < NumberOfNodes (kind d))%nat -> (c < 3)%nat ->
  entries (element_forces m' (gather (scaled a x) row) (quad d' row)) n c = b * (a * a) * entries (element_forces m (gather x row) (quad d row)) n c.
Proof.
  intros Hr Hn Hc. destruct (solid_row d row Sd Hr) as [Hl Hi].
  assert (G : forall x, length (gather x row) = NumberOfNodes (kind d)) by (intros y; unfold gather; rewrite map_length; exact Hl).
  destruct (element_forces_spec m' (gather (scaled a x) row) (quad d' row) _ (G _) (quad_sound d' row)) as (_ & _ & ->).
  destruct (element_forces_spec m (gather x row) (quad d row) _ (G _) (quad_sound d row)) as (_ & _ & ->).
  unfold quad. rewrite !get_gauss_nodes_alt, !map_map. change (kind d') with (kind d). rewrite <- Rsum_scal_l. apply Rsum_ext. intros g Hg.
  destruct (gauss_forces_spec m' (gather (scaled a x) row) _ _ (G _) (the_node_sound d' row g)) as (_ & _ & ->); [|exact Hn|exact Hc].
  destruct (gauss_forces_spec m (gather x row) _ _ (G _) (the_node_sound d row g)) as (_ & _ & ->); [|exact Hn|exact Hc].
  change (NumberOfNodes (kind d')) with (NumberOfNodes (kind d)). rewrite unit_gradient by assumption. rewrite unit_det by exact Hr. change (weight (the_node d' row g)) with (weight (the_node d row g)).
  rewrite (sum3_ext _ (fun k => b * entries (stress_power m (of_entries (grad (NumberOfNodes (kind d)) (entries (gather x row)) (entries (dN_dx (the_node d row g)))))) c k * (/ a * entries (dN_dx (the_node d row g)) n k))).
  - unfold sum3. field. lra.
  - intros k Hk. unfold m'. rewrite power_scaled by (first [apply of_entries_matrix3|assumption]). rewrite unit_node by assumption. reflexivity.
Qed.
Lemma unit_addForce x f : field N 3 x -> field N 3 f -> addForce m' d' (scaled a x) (scaled (b * (a * a)) f) = option_map (scaled (b * (a * a))) (addForce m d x f).
Proof.
  intros Fx Ff. destruct (addForce_spec m d x f N (proj1 Sd) LN (proj1 Fx) Ff) as (f1 & -> & F1 & E1).
  destruct (addForce_spec m' d' (scaled a x) (scaled (b * (a * a)) f) N (proj1 unit_solid) unit_length (proj1 (scaled_field a N x Fx)) (scaled_field _ N f Ff)) as (f2 & -> & F2 & E2).
  cbn [option_map]. f_equal. apply (CorotProofs3.fields_equal N); [exact F2|apply scaled_field, F1|]. intros p c Hc. rewrite (E2 p c Hc), !scaled_entries, (E1 p c Hc). change (kind d') with (kind d). change (connectivity d') with (connectivity d).
  rewrite Rmult_minus_distr_l. f_equal. rewrite <- Rsum_scal_l. apply Rsum_ext. intros row Hr. rewrite <- Rsum_scal_l. apply Rsum_ext. intros n Hn. apply in_seq in Hn. destruct (Nat.eqb _ p); [|ring]. apply unit_forces; first [assumption | lia].
Qed.
Lemma unit_energy x : field N 3 x -> getPotentialEnergy m' d' (scaled a x) = b * (a * a * a) * getPotentialEnergy m d x.
Proof.
  intros Fx. unfold getPotentialEnergy. rewrite (proj1 Fx), (proj1 (scaled_field a N x Fx)), unit_length, LN, Nat.eqb_refl. cbn [negb]. change (connectivity d') with (connectivity d).
  rewrite <- Rsum_scal_l. apply Rsum_ext. intros row Hr. destruct (solid_row d row Sd Hr) as [Hl Hi]. rewrite LN in Hi.
  assert (FP : field N 3 (positions d)) by (rewrite <- LN; apply Sd).
  rewrite (element_energy_spec m d x row N); [|apply Sd|exact FP|exact Fx|exact Hl|exact Hi|exact (proj1 (Forall_forall _ _) RG row Hr)].
  rewrite (element_energy_spec m' d' (scaled a x) row N); [|apply Sd|apply scaled_field, FP|apply scaled_field, Fx|exact Hl|exact Hi|exact (proj1 (Forall_forall _ _) unit_regular row Hr)].
  unfold quad. rewrite !get_gauss_nodes_alt, !map_map. change (kind d') with (kind d). rewrite <- Rsum_scal_l. apply Rsum_ext. intros g Hg.
  rewrite unit_det by exact Hr. change (weight (the_node d' row g)) with (weight (the_node d row g)).
  assert (E : gradient (scaled a x) row (the_node d' row g) = gradient x row (the_node d row g)).
  { unfold gradient. rewrite Hl. apply unit_gradient; assumption. }
  rewrite E. unfold m'. rewrite density_scaled. ring.
Qed.
End Units.
