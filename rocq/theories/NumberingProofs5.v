(** Proofs for C103: linear elasticity without corotation. *)

From Coq Require Import ZArith Reals Lra Lia.
From Coquelicot Require Import Coquelicot.
From Coq Require Import List Arith Bool Permutation.
From Verif Require Import GridGeoModel ShapeModel ShapeSpec ShapeProofs ShapeGaussProofs LinAlg LinAlgProofs RectModel BarycentricModel MappingSpec TensorModel TensorSpec
  MaterialModel MaterialSpec MaterialProofs SparseModel Sums TractionModel TractionProofs HyperModel HyperSpec HyperProofs HyperProofs2 CorotModel CorotSpec CorotProofs CorotProofs2 CorotProperties.
From Verif Require Import ObjectivityProofs3 NumberingSpec NumberingProofs NumberingProofs2 NumberingProofs3 NumberingProofs4.
From Verif Require ShapeFpSumProofs CorotProofs3 PatchProofs3.
Import ListNotations.
Open Scope R_scope.

Lemma integration_point_length k g : In g (integration_points k) -> length (fst g) = 3%nat.
Proof.
  destruct k as [|[|] ].
  - intros H. apply (gauss_position_length3 Tetrahedron_Linear); [reflexivity|exact H].
  - cbn [integration_points]. intros [<-|[] ]. reflexivity.
  - intros H. apply (gauss_position_length3 Hexahedron_Linear); [reflexivity|exact H].
Qed.
Lemma integration_points_carried k s : In s (symmetries (kind_of_elements k)) -> Permutation (map (carried_point s) (integration_points k)) (integration_points k).
Proof.
  destruct k as [|[|] ]; cbn [kind_of_elements].
  - apply (symmetry_points Tetrahedron_Linear).
  - intros [<-|[<-|[<-|[] ] ] ]; cbn [integration_points]; by_indices [0%nat].
  - apply (symmetry_points Hexahedron_Linear).
Qed.

Definition element_work (k : elastic) (x0 : list (list R)) (E nu : R) (u v : list (list R)) (row : list nat) (g : list R * R) : R :=
  let l := E * nu / ((1 + nu) * (1 - 2 * nu)) in
  let mu := E / (2 * (1 + nu)) in
  let eu := small_strain (field_gradient k x0 u row (fst g)) in
  let ev := small_strain (field_gradient k x0 v row (fst g)) in
  snd g * det (jacobian 3 (kind_of_elements k) (gather x0 row) (fst g)) * (l * tr eu * tr ev + 2 * mu * double_dot eu ev).

Lemma solid_kind k : CanonicalDimension (kind_of_elements k) = 3%nat.
Proof. destruct k; reflexivity. Qed.

Section Work.
Context (k : elastic) (x0 : list (list R)) (s : symmetry) (row : list nat).
Hypothesis Hs : In s (symmetries (kind_of_elements k)).
Hypothesis Hl : length row = NumberOfNodes (kind_of_elements k).
Let d := {| dim := 3%nat; kind := kind_of_elements k; positions := x0; connectivity := [] |}.
Let row' := map (fun a => nth a row 0%nat) (order s).
Lemma det_relisted g : length (fst g) = 3%nat -> det (jacobian 3 (kind_of_elements k) (gather x0 row') (fst g)) = det (turn s) * det (jacobian 3 (kind_of_elements k) (gather x0 row) (fst (carried_point s g))).
Proof.
  intros Lg. pose proof (rest_det_relisted d s row (solid_kind k) Hs Hl g Lg) as D. rewrite <- det_entries in D by apply (symmetry_turn _ s Hs). fold row' in D. rewrite Rmult_comm. exact D.
Qed.
Lemma field_gradient_relisted u g : length (fst g) = 3%nat -> field_gradient k x0 u row' (fst g) = field_gradient k x0 u row (fst (carried_point s g)).
Proof.
  intros Lg. unfold field_gradient, product, of_entries. apply map_ext_in. intros i Hi. apply map_ext_in. intros j Hj. apply in_seq in Hi, Hj. assert (Hi' : (i < 3)%nat) by lia. assert (Hj' : (j < 3)%nat) by lia. clear Hi Hj.
  set (A := entries (turn s)). set (cg := carried_point s g).
  assert (NZ : det3 A <> 0) by (destruct (proj2 (symmetry_turn _ s Hs)) as [E|E]; fold A in E; rewrite E; lra).
  assert (L' : length row' = NumberOfNodes (kind_of_elements k)) by apply (row'_length d s row Hs).
  assert (G : forall y i l, (i < 3)%nat -> (l < 3)%nat -> entries (jacobian 3 (kind_of_elements k) (gather y row') (fst g)) i l = mul (entries (jacobian 3 (kind_of_elements k) (gather y row) (fst cg))) A i l).
  { intros y i' l Hi Hl'. pose proof (jacobian_entries d row' g (solid_kind k) L' y) as J1. pose proof (jacobian_entries d row cg (solid_kind k) Hl y) as J2. cbn [kind d] in J1, J2. rewrite J1, J2, entries_of_entries by assumption.
    pose proof (grad_relisted d s row (solid_kind k) Hs Hl g Lg y i' l Hi Hl') as GR. cbn [kind d] in GR. fold row' A in GR. rewrite GR. unfold mul. apply sum3_ext. intros q Hq. rewrite entries_of_entries by assumption. reflexivity. }
  assert (M' : matrix3 (jacobian 3 (kind_of_elements k) (gather x0 row') (fst g))) by (pose proof (jacobian_entries d row' g (solid_kind k) L' x0) as J1; cbn [kind d] in J1; rewrite J1; apply of_entries_matrix3).
  assert (M : matrix3 (jacobian 3 (kind_of_elements k) (gather x0 row) (fst cg))) by (pose proof (jacobian_entries d row cg (solid_kind k) Hl x0) as J1; cbn [kind d] in J1; rewrite J1; apply of_entries_matrix3).
  rewrite (sum3_ext (fun l => entries (jacobian 3 (kind_of_elements k) (gather u row') (fst g)) i l * entries (inverse (jacobian 3 (kind_of_elements k) (gather x0 row') (fst g))) l j)
     (fun l => mul (entries (jacobian 3 (kind_of_elements k) (gather u row) (fst cg))) A i l * (mul (adj A) (entries (inverse (jacobian 3 (kind_of_elements k) (gather x0 row) (fst cg)))) l j / det3 A))).
  - set (U := entries (jacobian 3 _ (gather u row) (fst cg))). set (I := entries (inverse _)). unfold mul, sum3, det3, adj in *. field. exact NZ.
  - intros l Hl'. rewrite (G u i l Hi' Hl'). f_equal. rewrite (inverse_entries _ M'), entries_of_entries by assumption.
    rewrite (adj_ext _ (mul (entries (jacobian 3 (kind_of_elements k) (gather x0 row) (fst cg))) A)), (det3_ext _ (mul (entries (jacobian 3 (kind_of_elements k) (gather x0 row) (fst cg))) A)) by (first [assumption | intros; apply G; assumption]).
    rewrite adj_mul, det3_mul by assumption. rewrite (inverse_entries _ M). unfold mul, sum3. rewrite !entries_of_entries by lia. unfold Rdiv. rewrite Rinv_mult. ring.
Qed.
Lemma work_relisted E nu u v : Rsum (map (element_work k x0 E nu u v row') (integration_points k)) = det (turn s) * Rsum (map (element_work k x0 E nu u v row) (integration_points k)).
Proof.
  rewrite <- (ShapeFpSumProofs.Rsum_permutation _ _ (Permutation_map (element_work k x0 E nu u v row) (integration_points_carried k s Hs))), map_map, <- Rsum_scal_l.
  apply Rsum_ext. intros g Hg. pose proof (integration_point_length k g Hg) as Lg. unfold element_work. rewrite !field_gradient_relisted, det_relisted by exact Lg. change (snd (carried_point s g)) with (snd g). ring.
Qed.
Lemma degenerate_relisted : Forall (fun g => det (jacobian 3 (kind_of_elements k) (gather x0 row) (fst g)) <> 0) (integration_points k) -> Forall (fun g => det (jacobian 3 (kind_of_elements k) (gather x0 row') (fst g)) <> 0) (integration_points k).
Proof.
  intros F. apply Forall_forall. intros g Hg. pose proof (integration_point_length k g Hg) as Lg. rewrite det_relisted by exact Lg.
  assert (I : In (carried_point s g) (integration_points k)) by (apply (Permutation_in _ (integration_points_carried k s Hs)), in_map, Hg).
  apply Rmult_integral_contrapositive_currified; [|exact (proj1 (Forall_forall _ _) F _ I)]. rewrite det_entries by apply (symmetry_turn _ s Hs). destruct (proj2 (symmetry_turn _ s Hs)) as [E|E]; rewrite E; lra.
Qed.
End Work.

Definition valid_row_of (k : elastic) (x0 : list (list R)) (row : list nat) : Prop :=
  length row = NumberOfNodes (kind_of_elements k) /\ Forall (fun i => (i < length x0)%nat) row /\ Forall (fun g => det (jacobian 3 (kind_of_elements k) (gather x0 row) (fst g)) <> 0) (integration_points k).
Lemma oriented_valid k x0 row sigma row' : valid_row_of k x0 row -> oriented (kind_of_elements k) row sigma row' -> valid_row_of k x0 row'.
Proof.
  intros V O. induction O as [|sigma row' s Hs O (L & F & D)]; [exact V|]. set (d := {| dim := 3%nat; kind := kind_of_elements k; positions := x0; connectivity := [] |}).
  destruct (relisted_usable d (solid_kind k) row' (map (fun a => nth a row' 0%nat) (order s)) (Logic.conj L F) (one_more _ _ row' s Hs (as_it_is _ _))) as [L' F']. split; [exact L'|]. split; [exact F'|]. apply degenerate_relisted; assumption.
Qed.
Lemma oriented_work k x0 row sigma row' E nu u v : valid_row_of k x0 row -> oriented (kind_of_elements k) row sigma row' ->
  Rsum (map (element_work k x0 E nu u v row') (integration_points k)) = sigma * Rsum (map (element_work k x0 E nu u v row) (integration_points k)).
Proof.
  intros V O. induction O as [|sigma row' s Hs O IH]; [ring|]. rewrite work_relisted by (first [exact Hs | apply (oriented_valid k x0 row sigma row' V O)]). rewrite IH. ring.
Qed.

Section Meshes.
Context (m m' : mesh) (sigma : R) (rows : list (list nat)).
Hypothesis VM : valid_mesh m.
Hypothesis T : type m' = type m.
Hypothesis X : x0 m' = x0 m.
Hypothesis F2 : Forall2 (fun row row' => oriented (kind_of_elements (type m)) row sigma row') (elements m) rows.
Hypothesis P : Permutation rows (elements m').
Let N := length (x0 m).
Lemma oriented_row row' : In row' (elements m') -> exists row, In row (elements m) /\ oriented (kind_of_elements (type m)) row sigma row'.
Proof.
  intros H. apply (Permutation_in _ (Permutation_sym P)) in H. clear P. induction F2 as [|r r' l rows R F IH]; [destruct H|].
  destruct H as [->|H]; [exists r; split; [left; reflexivity|exact R]|]. destruct (IH F H) as (q & Hq & Rq). exists q. split; [right; exact Hq|exact Rq].
Qed.
Lemma oriented_mesh_valid : valid_mesh m'.
Proof.
  destruct VM as (NE & F & V). unfold valid_mesh. rewrite T, X. split; [|split; [exact F|] ].
  - intros Z. rewrite Z in P. apply Permutation_sym, Permutation_nil in P. rewrite P in F2. inversion F2 as [E|]. apply NE. symmetry. exact E.
  - apply Forall_forall. intros row' H. destruct (oriented_row row' H) as (row & Hr & O). apply (oriented_valid (type m) (x0 m) row sigma row'); [exact (proj1 (Forall_forall _ _) V row Hr)|exact O].
Qed.
Lemma oriented_mesh_work E nu u v : linear_elastic_work m' E nu u v = sigma * linear_elastic_work m E nu u v.
Proof.
  unfold linear_elastic_work. rewrite T, X.
  change (Rsum (map (fun row => Rsum (map (element_work (type m) (x0 m) E nu u v row) (integration_points (type m)))) (elements m')) =
          sigma * Rsum (map (fun row => Rsum (map (element_work (type m) (x0 m) E nu u v row) (integration_points (type m)))) (elements m))).
  set (h := fun row => Rsum (map (element_work (type m) (x0 m) E nu u v row) (integration_points (type m)))).
  rewrite <- (ShapeFpSumProofs.Rsum_permutation (map h rows) (map h (elements m'))) by (apply Permutation_map, P).
  destruct VM as (_ & _ & V). revert V F2. generalize (elements m) as l, rows as r. clear. intros l r V F. induction F as [|row row' l r O F IH]; [cbn; ring|].
  apply Forall_cons_iff in V. destruct V as [V0 V]. cbn [map]. unfold Rsum in *. cbn [fold_right]. rewrite (IH V). unfold h at 1. fold (Rsum (map (element_work (type m) (x0 m) E nu u v row') (integration_points (type m)))).
  change (fold_right Rplus 0 (map (element_work (type m) (x0 m) E nu u v row') (integration_points (type m)))) with (Rsum (map (element_work (type m) (x0 m) E nu u v row') (integration_points (type m)))).
  rewrite (oriented_work (type m) (x0 m) row sigma row' E nu u v V0 O). unfold h, Rsum. ring.
Qed.
Lemma oriented_forces E nu calls calls' x f : Forall evaluation calls -> Forall evaluation calls' -> field N 3 x -> field N 3 f ->
  exists g, field N 3 g /\ snd (addForce m (after m (fresh false E nu) (Reinit :: calls)) x f) = Some (displaced f g 1) /\
    snd (addForce m' (after m' (fresh false E nu) (Reinit :: calls')) x f) = Some (displaced f g sigma).
Proof.
  intros Ev Ev' Fx Ff. pose proof oriented_mesh_valid as VM'.
  destruct (C70_without_corotation m E nu calls x f VM Ev Fx Ff) as (f1 & E1 & F1 & W1).
  destruct (C70_without_corotation m' E nu calls' x f VM' Ev') as (f2 & E2 & F2' & W2); [rewrite X; exact Fx|rewrite X; exact Ff|]. rewrite X in F2', W2. fold N in F1, W1, F2', W2.
  assert (DS : displacement m' x = displacement m x) by (unfold displacement; rewrite X; reflexivity). rewrite DS in W2.
  set (g := displaced f1 f (-1)). assert (Fg : field N 3 g) by (apply displaced_field; assumption).
  assert (EG : forall p c, entries g p c = entries f1 p c - entries f p c) by (intros p c; unfold g; rewrite (displaced_entries N) by assumption; ring).
  exists g. split; [exact Fg|]. rewrite E1, E2. split; f_equal; apply (CorotProofs3.fields_equal N); try assumption; try (apply displaced_field; assumption); intros p c Hc; rewrite (displaced_entries N), EG by assumption; [ring|].
  destruct (Nat.lt_ge_cases p N) as [Hp|Hp].
  - rewrite <- (PatchProofs3.power_unit m N f1 p c), <- (PatchProofs3.power_unit m N f p c), <- (PatchProofs3.power_unit m N f2 p c) by assumption.
    rewrite W1, W2, oriented_mesh_work by apply PatchProofs3.unit_field_field. ring.
  - unfold entries. rewrite (nth_overflow f1) by (rewrite (proj1 F1); exact Hp). rewrite (nth_overflow f) by (rewrite (proj1 Ff); exact Hp). rewrite (nth_overflow f2) by (rewrite (proj1 F2'); exact Hp). destruct c; cbn [nth]; ring.
Qed.
End Meshes.
