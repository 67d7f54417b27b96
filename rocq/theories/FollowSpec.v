(** Vocabulary for C106: what moves with a body. *)

From Coq Require Import ZArith Reals List Arith Permutation.
From Verif Require Import GridGeoModel ShapeModel LinAlg RectModel BarycentricModel MappingModel MappingSpec BarycentricSpec.
Import ListNotations.
Open Scope R_scope.

(** An affine map of R^D: p |-> M p + b. *)
Definition affine_map (M : list (list R)) (b : list R) (p : list R) : list R := vadd (matvec M p) b.
Definition square_matrix (D : nat) (M : list (list R)) : Prop := length M = D /\ Forall (fun row => length row = D) M.

(** Moment of nodal forces about the origin. *)
Definition moment (x f : list (list R)) : list R := total 3 (map2 vcross x f).

(** The local origins of the elements are at 1e-5 or more. *)
Definition away_from_local_origins (d : domain) (p : list R) : Prop :=
  forall k, (k < length (connectivity d))%nat -> 1e-5 * 1e-5 <= distance_2 p (world_position d k (repeat 0 (CanonicalDimension (kind d)))).

(** p is on the common face (edge, node) of the elements k and k': a combination, with weights of sum 1, of their common nodes. *)
Definition on_common_face (d : domain) (k k' : nat) (p : list R) : Prop :=
  exists lambda : nat -> R,
    (forall j, ~ (In j (nth k (connectivity d) []) /\ In j (nth k' (connectivity d) [])) -> lambda j = 0) /\
    (forall row, row = nth k (connectivity d) [] \/ row = nth k' (connectivity d) [] ->
       NoDup row /\ Rsum (map lambda row) = 1 /\
       forall c, (c < dim d)%nat -> nth c p 0 = Rsum (map (fun j => lambda j * nth c (nth j (positions d) []) 0) row)).

(** The containment test of the element k, with its tolerance of 1e-10 in local coordinates, accepts p. *)
Definition accepted (d : domain) (k : nat) (p : list R) : Prop :=
  (k < length (connectivity d))%nat /\ exists xi, length xi = CanonicalDimension (kind d) /\ contains_local (kind d) xi 1e-10 = Some true /\ world_position d k xi = p.
(** The mesh is conforming around p: two elements that accept p meet there in a common face (edge, node). *)
Definition conforming_at (d : domain) (p : list R) : Prop := forall k k', accepted d k p -> accepted d k' p -> k <> k' -> on_common_face d k k' p.
(** The same mesh, its elements being listed in another order. *)
Definition reordered (d d' : domain) : Prop := dim d' = dim d /\ kind d' = kind d /\ positions d' = positions d /\ Permutation (connectivity d) (connectivity d').
