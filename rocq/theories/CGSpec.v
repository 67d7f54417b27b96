(** Vocabulary for the properties of the conjugate gradient solver. *)

From mathcomp Require Import all_ssreflect all_algebra.
From Verif Require Import CGModel.
Set Implicit Arguments.
Unset Strict Implicit.
Unset Printing Implicit Defensive.
Import GRing.Theory Num.Theory.
Local Open Scope ring_scope.

Section Spec.
Variable F : realFieldType.
Variable n : nat.

(** Symmetric positive definite. *)
Definition spd (A : 'M[F]_n) : Prop := A^T = A /\ forall v : 'cV[F]_n, v != 0 -> 0 < dot v (A *m v).

(** Squared norm of the residual of x. *)
Definition residual (A : 'M[F]_n) (b x : 'cV[F]_n) : F := squaredNorm (b - A *m x).

(** Squared energy norm of the error of x, where the exact solution is xs. *)
Definition energy_error (A : 'M[F]_n) (xs x : 'cV[F]_n) : F := dot (x - xs) (A *m (x - xs)).

(** The vector reached when the solve is allowed k iterations. *)
Definition iterate (EPSILON zero tol : F) (precond : 'cV[F]_n -> 'cV[F]_n) (A : 'M[F]_n) (b x0 : 'cV[F]_n) (k : nat) :
    'cV[F]_n :=
  match solve EPSILON zero k tol precond A b x0 with Defined o => solution o | Undefined => x0 end.

(** v is in the Krylov space of order k of the preconditioned matrix, i.e. a combination of
    M r, (M A) M r, ..., (M A)^(k-1) M r. *)
Definition in_krylov (M A : 'M[F]_n) (r : 'cV[F]_n) (k : nat) (v : 'cV[F]_n) : Prop :=
  exists c : nat -> F, v = \sum_(i < k) c i *: iter i (fun w => M *m (A *m w)) (M *m r).

(** P is an orthogonal projection (projective constraints that fix degrees of freedom are). *)
Definition orthogonal_projection (P : 'M[F]_n) : Prop := P^T = P /\ P *m P = P.
End Spec.
