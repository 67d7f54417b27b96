(** Vocabulary for bounding boxes (C64). *)

From Coq Require Import Reals List.
Import ListNotations.
Open Scope R_scope.

(** Coordinate c of a node. *)
Definition coordinate (c : nat) (x : list R) : R := nth c x 0.

(** Positions in dimension D whose coordinates are representable: strictly within [-limit, limit]. *)
Definition positions_in (D : nat) (limit : R) (positions : list (list R)) : Prop :=
  forall x, In x positions -> length x = D /\ forall c, (c < D)%nat -> - limit < coordinate c x < limit.

(** (lo, hi) along axis c: hi is the largest coordinate of the nodes, lo is the smallest one. *)
Definition largest (c : nat) (positions : list (list R)) (hi : R) : Prop :=
  (forall x, In x positions -> coordinate c x <= hi) /\ exists x, In x positions /\ coordinate c x = hi.
Definition smallest (c : nat) (positions : list (list R)) (lo : R) : Prop :=
  (forall x, In x positions -> lo <= coordinate c x) /\ exists x, In x positions /\ coordinate c x = lo.
