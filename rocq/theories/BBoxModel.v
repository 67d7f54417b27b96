(** Bounding boxes of the force fields: /repo/src/SofaCaribou/Forcefield/CaribouForcefield.inl:106-127,
    HexahedronElasticForce.cpp:579-599, TetrahedronElasticForce.cpp:351-371 (three copies of the same loop).
    Simplification: the coordinates are reals and [limit] is std::numeric_limits<Real>::max(), with
    lowest() = - max(). *)

From Coq Require Import Reals List.
From Flocq Require Import Core.Raux.
Import ListNotations.
Open Scope R_scope.

(** Lines 121-122: one comparison, on (minBBox[c], maxBBox[c]). *)
Definition update (b : R * R) (x : R) : R * R :=
  let '(lo, hi) := b in
  if Rlt_bool hi x then (lo, x) else if Rlt_bool x lo then (x, hi) else (lo, hi).

(** Lines 119-124 for one node: the three components are read whatever the dimension of the node; None is a read
    out of the node (undefined behaviour). *)
Definition update_node (b : option (list (R * R))) (x : list R) : option (list (R * R)) :=
  match b, x with
  | Some [b0; b1; b2], x0 :: x1 :: x2 :: _ => Some [update b0 x0; update b1 x1; update b2 x2]
  | _, _ => None
  end.

(** Lines 115-126: the value given to f_bbox, as (min, max) for each axis. *)
Definition computeBBox (limit : R) (positions : list (list R)) : option (list (R * R)) :=
  fold_left update_node positions (Some (repeat (limit, - limit) 3)).
