(** C108: the results of the corotational force fields do not depend on the units. *)

From Coq Require Import ZArith Reals Lra Lia.
From Coquelicot Require Import Coquelicot.
From Coq Require Import List Arith Bool.
From Verif Require Import GridGeoModel ShapeModel ShapeSpec LinAlg LinAlgProofs BarycentricModel MappingSpec MappingProofs TensorModel TensorSpec MaterialModel MaterialSpec SparseModel HyperModel HyperSpec CorotModel CorotSpec
  CorotProperties PatchSpec PatchProofs5 UnitsSpec UnitsProofs UnitsProofs2 UnitsSpec2 UnitsProofs3.
Import ListNotations.
Open Scope R_scope.
Notation scaled := UnitsSpec.scaled.
Notation addForce := CorotModel.addForce.
Notation addDForce := CorotModel.addDForce.

(** Tetrahedra and hexahedra, corotated or not, after any history of calls: lengths times a, Young's modulus times b, forces times b a^2. *)
Theorem C108_corotational_forces : forall a b m c E nu calls x f, 0 < a -> valid_mesh m ->
  snd (addForce (mesh_in_unit a m) (after (mesh_in_unit a m) (fresh c (b * E) nu) (map (call_in_units a b) calls)) (scaled a x) (scaled (b * (a * a)) f)) =
  option_map (scaled (b * (a * a))) (snd (addForce m (after m (fresh c E nu) calls) x f)).
Proof. intros. apply forces_alike; [assumption|]. apply alike_after; assumption. Qed.
Print Assumptions C108_corotational_forces.

Theorem C108_corotational_increments : forall a b m c E nu calls k v df, 0 < a -> valid_mesh m ->
  addDForce (mesh_in_unit a m) (after (mesh_in_unit a m) (fresh c (b * E) nu) (map (call_in_units a b) calls)) k (scaled a v) (scaled (b * (a * a)) df) =
  option_map (scaled (b * (a * a))) (addDForce m (after m (fresh c E nu) calls) k v df).
Proof. intros. apply increments_alike. apply alike_after; assumption. Qed.
Print Assumptions C108_corotational_increments.

(** The entries given to the solver: times b a, at the same places. *)
Theorem C108_corotational_matrix : forall a b m c E nu calls k offset, 0 < a -> valid_mesh m ->
  addKToMatrix (mesh_in_unit a m) (after (mesh_in_unit a m) (fresh c (b * E) nu) (map (call_in_units a b) calls)) k offset =
  option_map (entries_in_units a b) (addKToMatrix m (after m (fresh c E nu) calls) k offset).
Proof. intros. apply matrix_alike. apply alike_after; assumption. Qed.
Print Assumptions C108_corotational_matrix.

(** Four tetrahedra around a node, stretched: the force at this node is 1/6 N in metres and pascals; in millimetres and megapascals it is the same 1/6 N. *)
Example C108_star : exists f', snd (addForce (mesh_in_unit 1000 star) (after (mesh_in_unit 1000 star) (fresh true (1e-6 * 1) 0) [Reinit]) (scaled 1000 stretched) (scaled (1e-6 * (1000 * 1000)) (repeat [0; 0; 0] 5))) = Some f' /\
  entries f' 0 0 = 1 / 6.
Proof.
  destruct (star_force (repeat [0; 0; 0] 5)) as (f & A & E); [split; [reflexivity|repeat constructor]|].
  pose proof (C108_corotational_forces 1000 1e-6 star true 1 0 [Reinit] stretched (repeat [0; 0; 0] 5) ltac:(lra) star_valid) as H. cbn [map call_in_units] in H. rewrite A in H.
  eexists. split; [exact H|]. rewrite scaled_entries, E. unfold entries. cbn [repeat nth]. lra.
Qed.
