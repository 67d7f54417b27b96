(** Vocabulary for C107: the skin of a body and what it encloses. *)

From Coq Require Import Reals List Arith Permutation.
From Coq Require Import List.
From Verif Require Import GridGeoModel ShapeModel LinAlg BarycentricModel MappingSpec TensorSpec MaterialSpec HyperModel HyperSpec EnergySpec PatchSpec.
Import ListNotations.
Open Scope R_scope.

(** [skin p] lists the faces around the node p, seen from outside, that no other element covers: the other faces go by pairs. *)
Definition is_skin (d : domain) (skin : nat -> list (bool * list nat)) : Prop :=
  forall p, exists covered, Permutation (link d p) (skin p ++ covered) /\ paired covered.
(** Two meshes with the same skin: the same faces, with the same nodes at the same places.  The elements and the nodes inside may be others. *)
Definition same_skin (d d' : domain) (skin : nat -> list (bool * list nat)) : Prop :=
  is_skin d skin /\ is_skin d' skin /\
  forall p f, In f (skin p) -> site d' p = site d p /\ forall i, In i (snd f) -> site d' i = site d i.
(** One third of the flux through the skin of the field x |-> x, by the divergence theorem the volume inside. *)
Definition enclosed (d : domain) (skin : nat -> list (bool * list nat)) : R :=
  1 / 3 * Rsum (map (fun p => sum3 (fun k => nth k (site d p) 0 * shares d (skin p) k)) (seq 0 (length (positions d)))).
