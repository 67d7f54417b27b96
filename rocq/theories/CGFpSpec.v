(** Vocabulary for the properties of the conjugate gradient on doubles: exact quantities of the linear system. *)

From Coq Require Import ZArith Reals List Permutation.
From Verif Require Import ShapeModel FpModel FpProofs ShapeFpModel CGFpModel.
Import ListNotations.
Open Scope R_scope.

(** b_i - (A x)_i and the sum of the |a_ij|, in exact arithmetic. *)
Definition exact_residual (A : matrix) (b x : vector) (i : nat) : R :=
  val (at_ b i) - Rsum (map (fun c => val (snd c) * val (at_ x (fst c))) (nth i A [])).
Definition row_sum (A : matrix) (i : nat) : R := Rsum (map (fun c => Rabs (val (snd c))) (nth i A [])).
(** The square of the Euclidean norm. *)
Definition length2 (n : nat) (v : nat -> R) : R := Rsum (map (fun i => v i * v i) (seq 0 n)).

(** An n x n matrix without empty column. *)
Definition square_matrix (n : nat) (A : matrix) : Prop :=
  length A = n /\ (forall e c, In e A -> In c e -> (fst c < n)%nat) /\ (forall j, (j < n)%nat -> exists e c, In e A /\ In c e /\ fst c = j).

(** [t] adds up n terms, each once, with at most [w] leaves (terms and zeros the accumulators start from). *)
Definition sum_order (w n : nat) (t : tree) : Prop := Permutation (terms t) (seq 0 n) /\ (size t <= w)%nat.
(** All the sums of the solve are of this kind. *)
Definition orders_within (w n : nat) (A : matrix) (order : reduction -> tree) : Prop :=
  sum_order w n (order NormB) /\ (forall k, sum_order w n (order (Norm k)) /\ sum_order w n (order (Rho k)) /\ sum_order w n (order (Dot_pq k))) /\
  forall i, (i < n)%nat -> sum_order w (S (length (nth i A []))) (order (Initial i)) /\ forall k, sum_order w (length (nth i A [])) (order (Product k i)).
