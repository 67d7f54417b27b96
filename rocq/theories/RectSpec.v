(** Vocabulary for rectangular elements (C19-C21). *)

From Coq Require Import Reals List.
From Verif Require Import GridGeoModel ShapeModel ShapeSpec LinAlg RectModel.
Import ListNotations.
Open Scope R_scope.

(** The columns of the n x n matrix M form an orthonormal basis. *)
Definition orthonormal (n : nat) (M : list (list R)) : Prop :=
  square n M /\
  forall i j, (i < n)%nat -> (j < n)%nat ->
    dot (column M i) (column M j) = if Nat.eq_dec i j then 1 else 0.

(** A rectangular element: center in R^d, k non zero sizes, orthonormal frame of R^d. *)
Definition well_formed (d k : nat) (r : rectangular) : Prop :=
  length (p_center r) = d /\ length (p_H r) = k /\ Forall (fun h => h <> 0) (p_H r) /\ orthonormal d (p_R r).

(** An element is affine when its world coordinates are x0 + sum_k xi_k e_k. *)
Definition affine_element (d : nat) (e : element) (nodes : list (list R)) (x0 : list R) (E : list (list R)) : Prop :=
  table d (CanonicalDimension e) E /\ length x0 = d /\
  forall xi, length xi = CanonicalDimension e ->
    world_coordinates d e nodes xi = vadd x0 (matvec E xi).

(** Its directions are linearly independent: the Gram determinant of the columns of E is not zero. *)
Definition gram (k : nat) (E : list (list R)) : list (list R) :=
  map (fun i => map (fun j => dot (column E i) (column E j)) (seq 0 k)) (seq 0 k).
Definition independent (k : nat) (E : list (list R)) : Prop := det (gram k E) <> 0.

(** Squared distance of a point to the image of a local point. *)
Definition squared_distance (d : nat) (e : element) (nodes : list (list R)) (x xi : list R) : R :=
  let y := world_coordinates d e nodes xi in Rsum (map2 (fun a b => (a - b) * (a - b)) x y).
