(** Vectors and matrices of reals as lists (a matrix is the list of its rows): the Eigen operations that the
    models use.  Definitions only; every operation is the textbook one. *)

From Coq Require Import Reals List.
From Flocq Require Import Core.Raux.
From Verif Require Import GridGeoModel ShapeModel.
Import ListNotations.
Open Scope R_scope.

(** Eigen: a + b, a - b, s * a, a.cwiseProduct(b), a.cwiseQuotient(b) *)
Definition vadd (a b : list R) : list R := map2 Rplus a b.
Definition vminus (a b : list R) : list R := map2 Rminus a b.
Definition vscale (s : R) (a : list R) : list R := map (Rmult s) a.
Definition cwiseProduct (a b : list R) : list R := map2 Rmult a b.
Definition cwiseQuotient (a b : list R) : list R := map2 Rdiv a b.

(** Eigen: a.dot(b), a.squaredNorm(), a.norm() *)
Definition vdot (a b : list R) : R := Rsum (map2 Rmult a b).
Definition squaredNorm (a : list R) : R := vdot a a.
Definition norm (a : list R) : R := sqrt (squaredNorm a).

(** Eigen: a.normalized(): a / norm if the squared norm is positive, else a itself. *)
Definition normalized (a : list R) : list R :=
  if Rlt_bool 0 (squaredNorm a) then map (fun x => x / norm a) a else a.

(** Eigen: a.cross(b) *)
Definition vcross (a b : list R) : list R :=
  let a0 := nth 0 a 0 in let a1 := nth 1 a 0 in let a2 := nth 2 a 0 in
  let b0 := nth 0 b 0 in let b1 := nth 1 b 0 in let b2 := nth 2 b 0 in
  [ a1 * b2 - a2 * b1; a2 * b0 - a0 * b2; a0 * b1 - a1 * b0 ].

(** Eigen: M * v, M.transpose(), A * B (n is the number of columns of M, resp. of B) *)
Definition matvec (M : list (list R)) (v : list R) : list R := map (fun row => vdot row v) M.
Definition column (M : list (list R)) (j : nat) : list R := map (fun row => nth j row 0) M.
Definition transpose (n : nat) (M : list (list R)) : list (list R) := map (column M) (seq 0 n).
Definition matmul (n : nat) (A B : list (list R)) : list (list R) :=
  map (fun row => map (fun j => vdot row (column B j)) (seq 0 n)) A.

(** Eigen: M.determinant() and M.inverse() for fixed sizes 1, 2, 3 (cofactors divided by the determinant).
    Over the reals a singular matrix has no inverse; every theorem assumes a non zero determinant. *)
Definition det (M : list (list R)) : R :=
  match M with
  | [[a]] => a
  | [[a; b]; [c; d]] => a * d - b * c
  | [[a; b; c]; [d; e; f]; [g; h; i]] =>
      a * (e * i - f * h) - b * (d * i - f * g) + c * (d * h - e * g)
  | _ => 0
  end.
Definition inverse (M : list (list R)) : list (list R) :=
  let D := det M in
  match M with
  | [[a]] => [[1 / a]]
  | [[a; b]; [c; d]] => [[d / D; - b / D]; [- c / D; a / D]]
  | [[a; b; c]; [d; e; f]; [g; h; i]] =>
      [[(e * i - f * h) / D; (c * h - b * i) / D; (b * f - c * e) / D];
       [(f * g - d * i) / D; (a * i - c * g) / D; (c * d - a * f) / D];
       [(d * h - e * g) / D; (b * g - a * h) / D; (a * e - b * d) / D]]
  | _ => []
  end.
