(** Specification vocabulary for linear systems.  Nothing here refers to the code's functions, except the record of a sparse matrix. *)

From Coq Require Import Reals List Arith.
From Verif Require Import ShapeModel DirectModel.
Import ListNotations.
Open Scope R_scope.

(** Row [i] of the product of the [n] by [n] matrix [v] with the vector [x]. *)
Definition row_times (v : nat -> nat -> R) (n : nat) (x : list R) (i : nat) : R := Rsum (map (fun j => v i j * nth j x 0) (seq 0 n)).
(** [x] is a solution of the system of matrix [A] and right-hand side [b]. *)
Definition solution (A : matrix) (b x : list R) : Prop :=
  length x = rows A /\ forall i, (i < rows A)%nat -> row_times (value A) (rows A) x i = nth i b 0.
Definition symmetric (A : matrix) : Prop := forall i j, value A i j = value A j i.

(** A decomposition in exact arithmetic: when it succeeds, it solves the systems of the matrix it was given. *)
Definition exact_decomposition (decompose : decomposition -> nat -> (nat -> nat -> R) -> option (list R -> list R)) : Prop :=
  forall d n v f, decompose d n v = Some f -> forall b, length b = n ->
    length (f b) = n /\ forall i, (i < n)%nat -> row_times v n (f b) i = nth i b 0.

(** The matrices used in a history. *)
Definition used (h : list call) (A : matrix) : Prop := exists b x, In (Use A b x) h.
