(** Vocabulary for the barycentric mapping (C61). *)

From Coq Require Import ZArith Reals List.
From Verif Require Import GridGeoModel ShapeModel LinAlg BarycentricModel MappingModel.
Import ListNotations.
Open Scope R_scope.

(** A nodal field of vectors of dimension D at n nodes. *)
Definition field (n D : nat) (f : list (list R)) : Prop := length f = n /\ Forall (fun v => length v = D) f.

(** Power of nodal forces f on nodal velocities v: sum over nodes and components. *)
Definition power (f v : list (list R)) : R := Rsum (map2 (fun a b => Rsum (map2 Rmult a b)) f v).

(** Every element has the nodes of its type, and they exist. *)
Definition well_formed (d : domain) : Prop :=
  Forall (fun row => length row = NumberOfNodes (kind d) /\ Forall (fun i => (i < length (positions d))%nat) row)
         (connectivity d).

(** Rate of the constraint stored in a line, for the velocities v. *)
Definition constraint_rate (l : line) (v : list (list R)) : R :=
  Rsum (map (fun e => Rsum (map2 Rmult (snd e) (nth (fst e) v []))) l).
(** Line of a row (empty when it is not stored). *)
Definition line_of (H : constraint_matrix) (row : nat) : line :=
  match find (fun r => Nat.eqb (fst r) row) H with Some r => snd r | None => [] end.
(** A constraint matrix on n nodes of dimension D; each row is stored once. *)
Definition constraints (n D : nat) (H : constraint_matrix) : Prop :=
  NoDup (map fst H) /\ Forall (fun r => Forall (fun e => (fst e < n)%nat /\ length (snd e) = D) (snd r)) H.

(** Sum of the vectors of a field. *)
Definition total (D : nat) (f : list (list R)) : list R := map (fun c => Rsum (map (fun v => nth c v 0) f)) (seq 0 D).
