(** Proofs for C107. *)

From Coq Require Import ZArith Reals Lra Lia.
From Coquelicot Require Import Coquelicot.
From Coq Require Import List Arith Bool Permutation.
From Verif Require Import GridGeoModel ShapeModel ShapeSpec LinAlg LinAlgProofs BarycentricModel MappingSpec MappingProofs TensorModel TensorSpec
  MaterialModel MaterialSpec MaterialProofs SparseModel SparseProofs Sums HyperModel HyperSpec HyperProofs HyperProofs2 HyperProperties
  EnergySpec EnergyProofs PatchSpec PatchProofs PatchProofs2 PatchProperties RemeshSpec.
From Verif Require ShapeFpSumProofs.
Import ListNotations.
Open Scope R_scope.

Lemma pick (c : nat -> R) j N : (j < N)%nat -> Rsum (map (fun p => if Nat.eqb j p then c p else 0) (seq 0 N)) = c j.
Proof.
  intros Hj. assert (Z : forall n s, (j < s)%nat -> Rsum (map (fun p => if Nat.eqb j p then c p else 0) (seq s n)) = 0).
  { induction n as [|n IH]; intros s Hs; [reflexivity|]. cbn [seq map]. unfold Rsum in *. cbn [fold_right]. rewrite IH by lia. destruct (Nat.eqb_spec j s); [lia|ring]. }
  assert (Q : forall n s, (s <= j < s + n)%nat -> Rsum (map (fun p => if Nat.eqb j p then c p else 0) (seq s n)) = c j).
  { induction n as [|n IH]; intros s Hs; [lia|]. cbn [seq map]. destruct (Nat.eqb_spec j s) as [<-|N0].
    - unfold Rsum. cbn [fold_right]. fold (Rsum (map (fun p => if Nat.eqb j p then c p else 0) (seq (S j) n))). rewrite Z by lia. ring.
    - unfold Rsum. cbn [fold_right]. fold (Rsum (map (fun p => if Nat.eqb j p then c p else 0) (seq (S s) n))). rewrite IH by lia. ring. }
  apply Q. lia.
Qed.

(** ** One element *)
Definition cof (A : nat -> nat -> R) (k l : nat) : R := nth k (cofactor_product (of_entries A) (map (fun j => if Nat.eqb j l then 1 else 0) [0; 1; 2]%nat)) 0.
Lemma cof_product A v k : (k < 3)%nat -> nth k (cofactor_product (of_entries A) v) 0 = sum3 (fun l => nth l v 0 * cof A k l).
Proof.
  intros Hk. unfold cof, cofactor_product, of_entries, column, sum3. destruct k as [|[|[|] ] ]; try lia; cbn [map seq nth vcross vscale vadd map2 Nat.eqb]; ring.
Qed.
Lemma cof_det A : sum3 (fun k => sum3 (fun l => A k l * cof A k l)) = 3 * det (of_entries A).
Proof. unfold cof, cofactor_product, of_entries, column, sum3. cbn [map seq nth vcross vscale vadd map2 Nat.eqb det]. ring. Qed.
Lemma det_rank_one A u g : det (of_entries (fun i j => A i j + u i * g j)) = det (of_entries A) + sum3 (fun k => u k * sum3 (fun l => g l * cof A k l)).
Proof. unfold cof, cofactor_product, of_entries, column, sum3. cbn [map seq nth vcross vscale vadd map2 Nat.eqb det]. ring. Qed.
Lemma of_entries_ext A B : (forall i j, (i < 3)%nat -> (j < 3)%nat -> A i j = B i j) -> of_entries A = of_entries B.
Proof. intros H. unfold of_entries. apply map_ext_in. intros i Hi. apply in_seq in Hi. apply map_ext_in. intros j Hj. apply in_seq in Hj. apply H; lia. Qed.

Section Mesh.
Context (d : domain).
Hypothesis Sd : solid d.
Let n := NumberOfNodes (kind d).
Let N := length (positions d).
Definition grad_at (x : list (list R)) (row : list nat) (xi : list R) : nat -> nat -> R := grad n (entries (gather x row)) (entries (dL (kind d) xi)).

Lemma moved_volume x row xi : In row (connectivity d) -> local_volume (moved d x) row xi = det (of_entries (grad_at x row xi)).
Proof.
  intros Hr. unfold local_volume. change (nodes_of_element (moved d x) row) with (gather x row). change (kind (moved d x)) with (kind d).
  change xi with (fst (xi, 0)) at 1. rewrite (jacobian_entries d row (xi, 0)); [reflexivity|apply Sd|exact (proj1 (solid_row d row Sd Hr))].
Qed.
Lemma moved_integral x row a k : In row (connectivity d) -> (k < 3)%nat ->
  nodal_integral (kind d) (gauss_nodes (kind d)) (nodes_of_element (moved d x) row) a k = Rsum (map (fun g => snd g * sum3 (fun l => entries (dL (kind d) (fst g)) a l * cof (grad_at x row (fst g)) k l)) (gauss_nodes (kind d))).
Proof.
  intros Hr Hk. unfold nodal_integral. apply Rsum_ext. intros g _. change (nodes_of_element (moved d x) row) with (gather x row).
  rewrite (jacobian_entries d row g); [|apply Sd|exact (proj1 (solid_row d row Sd Hr))]. rewrite cof_product by exact Hk. reflexivity.
Qed.
Definition signed_volume (x : list (list R)) : R :=
  Rsum (map (fun row => Rsum (map (fun g => snd g * local_volume (moved d x) row (fst g)) (gauss_nodes (kind d)))) (connectivity d)).
(** The sum over the elements of the integrals of the node p. *)
Definition around (x : list (list R)) (p k : nat) : R :=
  Rsum (map (fun row => Rsum (map (fun a => if Nat.eqb (nth a row 0%nat) p then nodal_integral (kind d) (gauss_nodes (kind d)) (nodes_of_element (moved d x) row) a k else 0) (seq 0 n))) (connectivity d)).

Lemma sum3_Rsum {A} (f : nat -> A -> R) l : sum3 (fun k => Rsum (map (f k) l)) = Rsum (map (fun a => sum3 (fun k => f k a)) l).
Proof. unfold sum3. rewrite <- !Rsum_plus. apply Rsum_ext. reflexivity. Qed.
(** Regrouping the nodes of the elements. *)
Lemma regroup (h : nat -> nat -> R) (v : list nat -> nat -> nat -> R) : 
  Rsum (map (fun p => sum3 (fun k => h p k * Rsum (map (fun row => Rsum (map (fun a => if Nat.eqb (nth a row 0%nat) p then v row a k else 0) (seq 0 n))) (connectivity d)))) (seq 0 N)) =
  Rsum (map (fun row => Rsum (map (fun a => sum3 (fun k => h (nth a row 0%nat) k * v row a k)) (seq 0 n))) (connectivity d)).
Proof.
  transitivity (Rsum (map (fun p => Rsum (map (fun row => Rsum (map (fun a => if Nat.eqb (nth a row 0%nat) p then sum3 (fun k => h p k * v row a k) else 0) (seq 0 n))) (connectivity d))) (seq 0 N))).
  { apply Rsum_ext. intros p _. unfold sum3. rewrite <- !Rsum_scal_l, <- !Rsum_plus. apply Rsum_ext. intros row _. rewrite <- !Rsum_scal_l, <- !Rsum_plus. apply Rsum_ext. intros a _. destruct (Nat.eqb (nth a row 0%nat) p); ring. }
  rewrite Rsum_swap. apply Rsum_ext. intros row Hr. rewrite Rsum_swap. apply Rsum_ext. intros a Ha. apply in_seq in Ha. destruct (solid_row d row Sd Hr) as [Hl HF].
  apply (pick (fun p => sum3 (fun k => h p k * v row a k))). apply (proj1 (Forall_forall _ _) HF), nth_In. rewrite Hl. unfold n in Ha. lia.
Qed.

(** Three times the volume is the flux. *)
Lemma triple_volume x : 3 * signed_volume x = Rsum (map (fun p => sum3 (fun k => entries x p k * around x p k)) (seq 0 N)).
Proof.
  unfold around. rewrite (regroup (entries x) (fun row a k => nodal_integral (kind d) (gauss_nodes (kind d)) (nodes_of_element (moved d x) row) a k)).
  unfold signed_volume. rewrite <- Rsum_scal_l. apply Rsum_ext. intros row Hr. destruct (solid_row d row Sd Hr) as [Hl _].
  transitivity (Rsum (map (fun a => Rsum (map (fun g => snd g * sum3 (fun k => entries x (nth a row 0%nat) k * sum3 (fun l => entries (dL (kind d) (fst g)) a l * cof (grad_at x row (fst g)) k l))) (gauss_nodes (kind d)))) (seq 0 n))).
  - rewrite Rsum_swap, <- Rsum_scal_l. apply Rsum_ext. intros g _. rewrite moved_volume by exact Hr. rewrite Rsum_scal_l.
    transitivity (snd g * (3 * det (of_entries (grad_at x row (fst g))))); [ring|]. f_equal. rewrite <- cof_det. rewrite <- sum3_Rsum. apply sum3_ext. intros k Hk. 
    transitivity (sum3 (fun l => Rsum (map (fun a => entries x (nth a row 0%nat) k * (entries (dL (kind d) (fst g)) a l * cof (grad_at x row (fst g)) k l)) (seq 0 n)))).
    + apply sum3_ext. intros l Hl0. unfold grad_at at 1, grad. rewrite <- Rsum_scal_r. apply Rsum_ext. intros a Ha. apply in_seq in Ha. rewrite gather_entries by (rewrite Hl; unfold n in Ha; lia). ring.
    + rewrite sum3_Rsum. apply Rsum_ext. intros a _. unfold sum3. ring.
  - apply Rsum_ext. intros a _. symmetry. transitivity (sum3 (fun k => Rsum (map (fun g => snd g * (entries x (nth a row 0%nat) k * sum3 (fun l => entries (dL (kind d) (fst g)) a l * cof (grad_at x row (fst g)) k l))) (gauss_nodes (kind d))))).
    + apply sum3_ext. intros k Hk. rewrite moved_integral by assumption. rewrite <- Rsum_scal_l. apply Rsum_ext. intros g _. ring.
    + rewrite sum3_Rsum. apply Rsum_ext. intros g _. unfold sum3. ring.
Qed.
(** Moving one node. *)
Lemma one_node x y q : (q < N)%nat -> length x = N -> length y = N -> (forall p k, p <> q -> entries y p k = entries x p k) ->
  signed_volume y = signed_volume x + sum3 (fun k => (entries y q k - entries x q k) * around x q k).
Proof.
  intros Hq Lx Ly H. set (u := fun k => entries y q k - entries x q k).
  assert (E : sum3 (fun k => u k * around x q k) = Rsum (map (fun row => Rsum (map (fun g => snd g * sum3 (fun k => u k * sum3 (fun l => Rsum (map (fun a => if Nat.eqb (nth a row 0%nat) q then entries (dL (kind d) (fst g)) a l else 0) (seq 0 n)) * cof (grad_at x row (fst g)) k l))) (gauss_nodes (kind d)))) (connectivity d))).
  { unfold around. transitivity (sum3 (fun k => Rsum (map (fun row => u k * Rsum (map (fun a => if Nat.eqb (nth a row 0%nat) q then nodal_integral (kind d) (gauss_nodes (kind d)) (nodes_of_element (moved d x) row) a k else 0) (seq 0 n))) (connectivity d)))).
    { apply sum3_ext. intros k _. rewrite Rsum_scal_l. reflexivity. }
    rewrite sum3_Rsum. apply Rsum_ext. intros row Hr.
    transitivity (sum3 (fun k => Rsum (map (fun g => snd g * (u k * sum3 (fun l => Rsum (map (fun a => if Nat.eqb (nth a row 0%nat) q then entries (dL (kind d) (fst g)) a l else 0) (seq 0 n)) * cof (grad_at x row (fst g)) k l))) (gauss_nodes (kind d))))).
    - apply sum3_ext. intros k Hk. rewrite (Rsum_ext _ _ (fun a => Rsum (map (fun g => snd g * sum3 (fun l => (if Nat.eqb (nth a row 0%nat) q then entries (dL (kind d) (fst g)) a l else 0) * cof (grad_at x row (fst g)) k l)) (gauss_nodes (kind d))))).
      + rewrite Rsum_swap, <- Rsum_scal_l. apply Rsum_ext. intros g _. rewrite Rsum_scal_l, <- sum3_Rsum. rewrite (sum3_ext _ (fun l => Rsum (map (fun a => if Nat.eqb (nth a row 0%nat) q then entries (dL (kind d) (fst g)) a l else 0) (seq 0 n)) * cof (grad_at x row (fst g)) k l)) by (intros l _; apply Rsum_scal_r). ring.
      + intros a _. destruct (Nat.eqb (nth a row 0%nat) q); [apply moved_integral; assumption|]. symmetry. apply Rsum_zero. intros g _. unfold sum3. ring.
    - rewrite sum3_Rsum. apply Rsum_ext. intros g _. unfold sum3. ring. }
  change (sum3 (fun k => (entries y q k - entries x q k) * around x q k)) with (sum3 (fun k => u k * around x q k)). rewrite E. unfold signed_volume. rewrite <- Rsum_plus. apply Rsum_ext. intros row Hr. destruct (solid_row d row Sd Hr) as [Hl _]. rewrite <- Rsum_plus. apply Rsum_ext. intros g _.
  rewrite !moved_volume by exact Hr. rewrite <- Rmult_plus_distr_l. f_equal.
  rewrite <- (det_rank_one (grad_at x row (fst g)) u (fun l => Rsum (map (fun a => if Nat.eqb (nth a row 0%nat) q then entries (dL (kind d) (fst g)) a l else 0) (seq 0 n)))). f_equal. apply of_entries_ext. intros i j _ _.
  unfold grad_at, grad. rewrite <- Rsum_scal_l, <- Rsum_plus. apply Rsum_ext. intros a Ha. apply in_seq in Ha. rewrite !gather_entries by (rewrite Hl; unfold n in Ha; lia).
  destruct (Nat.eqb_spec (nth a row 0%nat) q) as [->|Nq]; [unfold u; ring|]. rewrite H by exact Nq. ring.
Qed.

(** The integrals around a node are its shares of the faces. *)
Lemma around_shares p k : patchable d -> (k < 3)%nat -> around (positions d) p k = shares d (link d p) k.
Proof.
  intros PA Hk. unfold around, shares, link. rewrite Rsum_flat_map. apply Rsum_ext. intros row Hr.
  rewrite Rsum_flat_map. apply Rsum_ext. intros a Ha. apply in_seq in Ha. destruct (Nat.eqb (nth a row 0%nat) p); [|reflexivity].
  change (nodes_of_element (moved d (positions d)) row) with (nodes_of_element d row). rewrite element_shares by (assumption || (unfold n in Ha; lia)). apply element_link; assumption.
Qed.
Lemma rest_signed s : numbered_alike d s -> rest_volume d = s * signed_volume (positions d).
Proof.
  intros NA. unfold rest_volume, signed_volume. rewrite <- Rsum_scal_l. apply Rsum_ext. intros row Hr. rewrite <- Rsum_scal_l. apply Rsum_ext. intros g Hg.
  rewrite (numbered_volume d s NA row g Hr Hg). change (local_volume (moved d (positions d)) row (fst g)) with (local_volume d row (fst g)). ring.
Qed.
End Mesh.
