(** Specification vocabulary for the implicit surfaces: Euclidean distances and solids.  Nothing here refers to the code's functions. *)

From Coq Require Import Reals List Lra.
From Verif Require Import ShapeModel.
Import ListNotations.
Open Scope R_scope.

Definition distance (x c : list R) : R := sqrt (Rsum (map (fun p => (fst p - snd p) ^ 2) (combine x c))).
(** The points at a distance less than [r] of the centre. *)
Definition open_ball (c : list R) (r : R) (x : list R) : Prop := length x = length c /\ distance x c < r.
(** The open cylinder along the third axis, of the given radius and length, in the middle of which is the centre. *)
Definition open_cylinder (c : list R) (r len : R) (x : list R) : Prop :=
  distance (firstn 2 x) (firstn 2 c) < r /\ Rabs (nth 2 x 0 - nth 2 c 0) < len / 2.
