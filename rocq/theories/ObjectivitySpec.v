(** Vocabulary for C102: vectors turned by a rotation, node by node (the moved positions are [rigid] of CorotSpec.v, the rotations [rotation] of MaterialSpec.v). *)

From Coq Require Import Reals List.
From Verif Require Import ShapeModel LinAlg RectModel.
Import ListNotations.
Open Scope R_scope.

(** Q f_i at each node. *)
Definition turned (Q : list (list R)) (f : list (list R)) : list (list R) := map (matvec Q) f.
