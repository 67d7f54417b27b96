(** The forces of linear elasticity for an affine displacement (C97). *)

From Coq Require Import ZArith Reals Lra Lia.
From Coquelicot Require Import Coquelicot.
From Coq Require Import List Arith Bool Permutation.
From Verif Require Import GridGeoModel ShapeModel ShapeSpec ShapeProofs ShapeFieldProofs ShapeGaussProofs LinAlg LinAlgProofs BarycentricModel MappingSpec MappingProofs TensorModel TensorSpec
  MaterialModel MaterialSpec MaterialProofs SparseModel SparseProofs Sums HyperModel HyperSpec HyperProofs HyperProofs2 HyperProofs3 HyperProofs4 HyperProperties
  StabilityProofs StabilityProofs2 EnergySpec EnergyProofs PatchSpec PatchProofs PatchProofs2.
From Verif Require Import CorotModel CorotSpec CorotProofs CorotProofs2 CorotProofs3 CorotProofs4 CorotProperties.
Import ListNotations.
Open Scope R_scope.

Section Mesh.
Context (m : mesh).
Hypothesis VM : valid_mesh m.
Let e := kind_of_elements (type m).
Let n := NumberOfNodes e.

Lemma dim3 : CanonicalDimension e = 3%nat.
Proof. unfold e. destruct (type m); reflexivity. Qed.
Lemma body_solid : solid (body m).
Proof.
  destruct VM as (_ & F & R). split; [|split; [|exact F]].
  - apply Forall_forall. intros row Hr. pose proof (proj1 (Forall_forall _ _) R row Hr) as (A & B & _). split; assumption.
  - unfold body. cbn [kind]. destruct (type m); reflexivity.
Qed.
Lemma body_row row : In row (elements m) -> length row = n /\ Forall (fun i => (i < length (x0 m))%nat) row /\
  forall g, In g (integration_points (type m)) -> det (jacobian 3 e (gather (x0 m) row) (fst g)) <> 0.
Proof.
  intros Hr. destruct VM as (_ & _ & R). pose proof (proj1 (Forall_forall _ _) R row Hr) as (A & B & C). split; [exact A|]. split; [exact B|].
  intros g Hg. exact (proj1 (Forall_forall _ _) C g Hg).
Qed.

(** Derivatives of the shape functions with respect to the rest positions. *)
Definition slope (row : list nat) (g : list R * R) (a l : nat) : R := entries (dN_dx (corot_node (type m) (x0 m) row g)) a l.
Lemma slope_inverse row g a l : In row (elements m) -> (a < n)%nat -> (l < 3)%nat ->
  slope row g a l = sum3 (fun c => nth c (nth a (dL e (fst g)) []) 0 * entries (inverse (jacobian 3 e (gather (x0 m) row) (fst g))) c l).
Proof.
  intros Hr Ha Hl. destruct (body_row row Hr) as (L & _ & _).
  exact (the_node_entries {| dim := 3; kind := e; positions := x0 m; connectivity := [row] |} row g dim3 L a l Ha Hl).
Qed.
Lemma slope_integral row a l : In row (elements m) -> (a < n)%nat -> (l < 3)%nat ->
  Rsum (map (fun g => snd g * det (jacobian 3 e (gather (x0 m) row) (fst g)) * slope row g a l) (integration_points (type m))) =
  nodal_integral e (integration_points (type m)) (nodes_of_element (body m) row) a l.
Proof.
  intros Hr Ha Hl. destruct (body_row row Hr) as (L & _ & D). unfold nodal_integral. apply Rsum_ext. intros g Hg.
  rewrite slope_inverse by assumption. change (nodes_of_element (body m) row) with (gather (x0 m) row).
  rewrite cofactor_inverse; [unfold e; ring| |apply D; exact Hg| |exact Hl].
  - apply (rest_J_matrix {| dim := 3; kind := e; positions := x0 m; connectivity := [row] |} row g); [apply dim3|exact L].
  - unfold e. rewrite length_dL_row; [apply dim3|exact Ha].
Qed.
Lemma element_exact row a k : exactly_integrated m -> In row (elements m) -> (a < n)%nat -> (k < 3)%nat ->
  nodal_integral e (integration_points (type m)) (nodes_of_element (body m) row) a k = nodal_shares e (nodes_of_element (body m) row) a k.
Proof.
  intros EI Hr Ha Hk. unfold exactly_integrated in EI.
  assert (G : integration_points (type m) = gauss_nodes e -> nodal_integral e (integration_points (type m)) (nodes_of_element (body m) row) a k = nodal_shares e (nodes_of_element (body m) row) a k).
  { intros ->. apply (element_shares (body m) row a k body_solid Hr); try assumption. unfold patchable, body. cbn [kind]. destruct (type m); exact I. }
  unfold n, e in *. destruct (type m) as [|[|]] eqn:T.
  - apply G. reflexivity.
  - destruct (EI row Hr) as (t & M & Lt & MM & EN). unfold body in EN at 2. cbn [kind] in EN. rewrite T in EN. cbn [kind_of_elements] in EN. rewrite EN.
    apply one_point_faces; assumption.
  - apply G. reflexivity.
Qed.

Lemma gradient_slopes row g u i l : In row (elements m) -> (i < 3)%nat -> (l < 3)%nat ->
  entries (field_gradient (type m) (x0 m) u row (fst g)) i l = Rsum (map (fun a => entries u (nth a row 0%nat) i * slope row g a l) (seq 0 n)).
Proof.
  intros Hr Hi Hl. destruct (body_row row Hr) as (L & _ & _). rewrite <- (corot_gradient (type m) (x0 m) row L) by assumption.
  unfold grad. apply Rsum_ext. intros a Ha. apply in_seq in Ha. rewrite gather_entries by (rewrite L; exact (proj2 Ha)). reflexivity.
Qed.
Lemma slopes_balanced row g l : In row (elements m) -> In g (integration_points (type m)) -> (l < 3)%nat ->
  Rsum (map (fun a => slope row g a l) (seq 0 n)) = 0.
Proof.
  intros Hr Hg Hl. destruct (body_row row Hr) as (L & _ & _).
  exact (proj2 (corot_node_balanced (type m) (x0 m) row L g (integration_point_length _ _ Hg)) l Hl).
Qed.
Lemma rest_gradient row g i l : In row (elements m) -> In g (integration_points (type m)) -> (i < 3)%nat -> (l < 3)%nat ->
  entries (field_gradient (type m) (x0 m) (x0 m) row (fst g)) i l = delta i l.
Proof.
  intros Hr Hg Hi Hl. destruct (body_row row Hr) as (L & _ & D). unfold field_gradient, product. rewrite entries_of_entries by assumption.
  exact (J_inverse {| dim := 3; kind := e; positions := x0 m; connectivity := [row] |} row g dim3 L (D g Hg) i l Hi Hl).
Qed.
Lemma affine_gradient t A u row g : In row (elements m) -> In g (integration_points (type m)) ->
  (forall p c, (p < length (x0 m))%nat -> (c < 3)%nat -> entries u p c = t c + sum3 (fun l => A c l * entries (x0 m) p l)) ->
  forall i l, (i < 3)%nat -> (l < 3)%nat -> entries (field_gradient (type m) (x0 m) u row (fst g)) i l = A i l.
Proof.
  intros Hr Hg U i l Hi Hl. destruct (body_row row Hr) as (L & B & _). rewrite gradient_slopes by assumption.
  rewrite (Rsum_ext _ _ (fun a => t i * slope row g a l + (A i 0%nat * (entries (x0 m) (nth a row 0%nat) 0 * slope row g a l) +
     (A i 1%nat * (entries (x0 m) (nth a row 0%nat) 1 * slope row g a l) + A i 2%nat * (entries (x0 m) (nth a row 0%nat) 2 * slope row g a l))))).
  2:{ intros a Ha. apply in_seq in Ha. rewrite U; [unfold sum3; ring| |exact Hi]. apply (proj1 (Forall_forall _ _) B), nth_In. rewrite L. lia. }
  rewrite !Rsum_plus, !Rsum_scal_l, slopes_balanced, <- !(gradient_slopes row g (x0 m)), !rest_gradient by (assumption || lia).
  unfold delta. destruct l as [|[|[|]]]; try lia; cbn; ring.
Qed.

Lemma affine_work E nu t A u v : 
  (forall p c, (p < length (x0 m))%nat -> (c < 3)%nat -> entries u p c = t c + sum3 (fun l => A c l * entries (x0 m) p l)) ->
  linear_elastic_work m E nu u v =
  Rsum (map (fun row => sum3 (fun i => sum3 (fun j => linear_stress E nu A i j *
    Rsum (map (fun a => entries v (nth a row 0%nat) i * nodal_integral e (integration_points (type m)) (nodes_of_element (body m) row) a j) (seq 0 n))))) (elements m)).
Proof.
  intros U. unfold linear_elastic_work. cbv zeta. apply Rsum_ext. intros row Hr.
  transitivity (Rsum (map (fun g => sum3 (fun i => sum3 (fun j => linear_stress E nu A i j *
    Rsum (map (fun a => entries v (nth a row 0%nat) i * (snd g * det (jacobian 3 e (gather (x0 m) row) (fst g)) * slope row g a j)) (seq 0 n))))) (integration_points (type m)))).
  - apply Rsum_ext. intros g Hg. fold e.
    assert (S : forall i j, (i < 3)%nat -> (j < 3)%nat ->
      Rsum (map (fun a => entries v (nth a row 0%nat) i * (snd g * det (jacobian 3 e (gather (x0 m) row) (fst g)) * slope row g a j)) (seq 0 n)) =
      snd g * det (jacobian 3 e (gather (x0 m) row) (fst g)) * entries (field_gradient (type m) (x0 m) v row (fst g)) i j).
    { intros i j Hi Hj. rewrite gradient_slopes by assumption. rewrite <- Rsum_scal_l. apply Rsum_ext. intros a _. ring. }
    unfold tr, double_dot, small_strain, sum3. rewrite !S by lia.
    rewrite !entries_of_entries by lia. rewrite !(affine_gradient t A u row g Hr Hg U) by lia.
    unfold linear_stress, delta. cbn [Nat.eqb]. set (lam := E * nu / ((1 + nu) * (1 - 2 * nu))). set (mu' := E / (2 * (1 + nu))). field.
  - unfold sum3. rewrite !Rsum_plus, !Rsum_scal_l.
    assert (S : forall i j, (j < 3)%nat -> Rsum (map (fun g => Rsum (map (fun a => entries v (nth a row 0%nat) i * (snd g * det (jacobian 3 e (gather (x0 m) row) (fst g)) * slope row g a j)) (seq 0 n)))
        (integration_points (type m))) = Rsum (map (fun a => entries v (nth a row 0%nat) i * nodal_integral e (integration_points (type m)) (nodes_of_element (body m) row) a j) (seq 0 n))).
    { intros i j Hj. rewrite Rsum_swap. apply Rsum_ext. intros a Ha. apply in_seq in Ha. rewrite Rsum_scal_l. f_equal. apply slope_integral; [exact Hr|lia|exact Hj]. }
    rewrite !S by lia. reflexivity.
Qed.

(** A unit displacement of one node. *)
Definition unit_field (N p c : nat) : list (list R) := map (fun q => map (fun k => if (Nat.eqb q p && Nat.eqb k c)%bool then 1 else 0) (seq 0 3)) (seq 0 N).
Lemma unit_field_field N p c : field N 3 (unit_field N p c).
Proof.
  split; [unfold unit_field; rewrite map_length, seq_length; reflexivity|]. apply Forall_forall. intros r Hr. apply in_map_iff in Hr. destruct Hr as (q & <- & _). reflexivity.
Qed.
Lemma unit_field_entries N p c q k : (q < N)%nat -> (k < 3)%nat -> entries (unit_field N p c) q k = if Nat.eqb q p then (if Nat.eqb k c then 1 else 0) else 0.
Proof.
  intros Hq Hk. unfold entries, unit_field. rewrite (nth_indep _ [] ((fun q => map (fun k => if (Nat.eqb q p && Nat.eqb k c)%bool then 1 else 0) (seq 0 3)) 0%nat)) by (rewrite map_length, seq_length; exact Hq).
  rewrite (map_nth (fun q => map (fun k => if (Nat.eqb q p && Nat.eqb k c)%bool then 1 else 0) (seq 0 3))), seq_nth by exact Hq. cbn [Nat.add].
  destruct k as [|[|[|]]]; try lia; cbn [seq map nth]; destruct (Nat.eqb q p); reflexivity.
Qed.
Lemma power_unit N f p c : field N 3 f -> (p < N)%nat -> (c < 3)%nat -> power f (unit_field N p c) = entries f p c.
Proof.
  intros Ff Hp Hc. rewrite (power_weighted N) by (exact Ff || apply unit_field_field). unfold weighted.
  rewrite (Rsum_ext _ _ (fun q => if Nat.eqb p q then entries f q c else 0)).
  - apply (Rsum_delta (fun q => entries f q c)). exact Hp.
  - intros q Hq. apply in_seq in Hq. unfold sum3. rewrite !unit_field_entries by lia. rewrite (Nat.eqb_sym q p). destruct (Nat.eqb p q); [|ring].
    destruct c as [|[|[|]]]; try lia; cbn [Nat.eqb]; ring.
Qed.

Lemma linear_patch_integral E nu calls t Q f p c : Forall evaluation calls -> length t = 3%nat -> matrix3 Q -> field (length (x0 m)) 3 f ->
  (p < length (x0 m))%nat -> (c < 3)%nat ->
  exists f', snd (addForce m (after m (fresh false E nu) (Reinit :: calls)) (placed t Q (x0 m)) f) = Some f' /\ field (length (x0 m)) 3 f' /\
    entries f' p c = entries f p c - sum3 (fun k => linear_stress E nu (fun i j => entries Q i j - delta i j) c k *
      Rsum (map (fun row => Rsum (map (fun a => if Nat.eqb (nth a row 0%nat) p then nodal_integral e (integration_points (type m)) (nodes_of_element (body m) row) a k else 0)
        (seq 0 n))) (elements m))).
Proof.
  intros EV Lt MQ Ff Hp Hc. pose proof (placed_field (body m) t Q Lt MQ) as Fx. cbn [positions body] in Fx.
  destruct (C70_without_corotation m E nu calls (placed t Q (x0 m)) f VM EV Fx Ff) as (f' & H & Ff' & W). exists f'. split; [exact H|]. split; [exact Ff'|].
  pose proof (W _ (unit_field_field (length (x0 m)) p c)) as P. rewrite !power_unit in P by assumption. rewrite P. f_equal.
  rewrite (affine_work E nu (fun c => nth c t 0) (fun i j => entries Q i j - delta i j)).
  2:{ intros q k Hq Hk. destruct VM as (_ & F0 & _). rewrite (proj2 (displacement_field m _ Fx F0)) by assumption.
      pose proof (placed_entries (body m) body_solid t Q q k Lt MQ Hq Hk) as PE. cbn [positions body] in PE. rewrite PE. unfold sum3, delta. destruct k as [|[|[|]]]; try lia; cbn [Nat.eqb]; ring. }
  unfold sum3 at 3. rewrite <- !Rsum_scal_l, <- !Rsum_plus. apply Rsum_ext. intros row Hr.
  destruct (body_row row Hr) as (L & B & _).
  assert (S : forall i j, (i < 3)%nat -> (j < 3)%nat -> Rsum (map (fun a => entries (unit_field (length (x0 m)) p c) (nth a row 0%nat) i * nodal_integral e (integration_points (type m)) (nodes_of_element (body m) row) a j) (seq 0 n)) =
    (if Nat.eqb i c then 1 else 0) * Rsum (map (fun a => if Nat.eqb (nth a row 0%nat) p then nodal_integral e (integration_points (type m)) (nodes_of_element (body m) row) a j else 0) (seq 0 n))).
  { intros i j Hi Hj. rewrite <- Rsum_scal_l. apply Rsum_ext. intros a Ha. apply in_seq in Ha.
    rewrite unit_field_entries; [|apply (proj1 (Forall_forall _ _) B), nth_In; rewrite L; lia|exact Hi].
    destruct (Nat.eqb (nth a row 0%nat) p); [reflexivity|ring]. }
  unfold sum3. rewrite !S by lia. destruct c as [|[|[|]]]; try lia; cbn [Nat.eqb]; ring.
Qed.
Lemma linear_patch E nu calls t Q f p c : exactly_integrated m -> Forall evaluation calls -> length t = 3%nat -> matrix3 Q -> field (length (x0 m)) 3 f ->
  (p < length (x0 m))%nat -> (c < 3)%nat ->
  exists f', snd (addForce m (after m (fresh false E nu) (Reinit :: calls)) (placed t Q (x0 m)) f) = Some f' /\ field (length (x0 m)) 3 f' /\
    entries f' p c = entries f p c - sum3 (fun k => linear_stress E nu (fun i j => entries Q i j - delta i j) c k * Rsum (map (fun h => nth k (share (site (body m)) h) 0) (link (body m) p))).
Proof.
  intros EI EV Lt MQ Ff Hp Hc. destruct (linear_patch_integral E nu calls t Q f p c EV Lt MQ Ff Hp Hc) as (f' & H & Ff' & W). exists f'. split; [exact H|]. split; [exact Ff'|].
  rewrite W. f_equal. apply sum3_ext. intros k Hk. f_equal. unfold link. cbn [connectivity body]. rewrite Rsum_flat_map. apply Rsum_ext. intros row Hr.
  rewrite Rsum_flat_map. apply Rsum_ext. intros a Ha. apply in_seq in Ha. destruct (Nat.eqb (nth a row 0%nat) p); [|reflexivity].
  rewrite element_exact; [|exact EI|exact Hr|exact (proj2 Ha)|exact Hk]. exact (element_link (body m) row a k body_solid Hr).
Qed.
End Mesh.
