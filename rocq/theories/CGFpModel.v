(** Model of the conjugate gradient solver on doubles,
    /repo/src/SofaCaribou/Solver/ConjugateGradientSolver.inl:298-400 (cited as C:lines), and of the call that stores its
    result, /repo/src/SofaCaribou/Solver/EigenSolver.inl:190-205.
    Numbers are IEEE doubles (FpModel.v): NaN and the infinities are values and no operation is undefined.  The
    matrix is the list of the stored entries of its rows (a sparse matrix), each with its column.  Eigen adds up the terms of a dot product, of
    a squared norm and of a row of a product in an order that depends on its vectorisation and on the storage order:
    here each of these sums is made in an arbitrary order of its own.  b - A*x is one sum per row (noalias: b is
    copied and the products are subtracted from it, or their sum is).  The preconditioner is an arbitrary function. *)

From Coq Require Import ZArith List Bool.
From Verif Require Import GridGeoModel FpModel ShapeFpModel.
Import ListNotations.
Open Scope nat_scope.

Definition vector := list double.
Definition at_ (x : vector) (j : nat) : double := nth j x (of_int 0).
Definition row := list (nat * double).
Definition matrix := list row.

(** The sums made by a solve, each with its order: the squared norm of b; the rows of b - A*x; the squared norm of
    the residual (0: the initial one; k+1: that of iteration k); rho (likewise); p.dot(q) and the rows of A*p of iteration k. *)
Inductive reduction : Type :=
| NormB
| Initial (i : nat)
| Norm (k : nat)
| Rho (k : nat)
| Dot_pq (k : nat)
| Product (k i : nat).

Section Solve.
Variable order : reduction -> tree.
Variable A : matrix.
Variable precond : vector -> vector.

(** u.dot(v) *)
Definition fdot (s : reduction) (a c : vector) : double := fsum (map2 fmul a c) (order s).
Definition fsquaredNorm (s : reduction) (a : vector) : double := fdot s a a.
(** The terms of row [e] of A*v. *)
Definition products (v : vector) (e : row) : list double := map (fun c => fmul (snd c) (at_ v (fst c))) e.
(** Row by row, with the index of the row. *)
Fixpoint rows_from {B : Type} (f : nat -> row -> B) (i : nat) (m : matrix) : list B :=
  match m with [] => [] | e :: m => f i e :: rows_from f (S i) m end.
(** C:353: q.noalias() = A * p *)
Definition fproduct (k : nat) (v : vector) : vector := rows_from (fun i e => fsum (products v e) (order (Product k i))) 0 A.
(** C:334: r.noalias() = b - A*x *)
Definition fresidual (b x : vector) : vector :=
  rows_from (fun i e => fsum (at_ b i :: map fneg (products x e)) (order (Initial i))) 0 A.
(** C:357: x += alpha * p;  C:358: r -= alpha * q;  C:377: p = z + beta * p *)
Definition faxpy (x : vector) (alpha : double) (p : vector) : vector := map2 fadd x (map (fmul alpha) p).
Definition faxmy (r : vector) (alpha : double) (q : vector) : vector := map2 fsub r (map (fmul alpha) q).

(** What the loop carries from one iteration to the next: x, r, p and rho0. *)
Record state := State { s_x : vector; s_r : vector; s_p : vector; s_rho : double }.
(** C:356: alpha = rho0 / p.dot(q) *)
Definition step_length (k : nat) (s : state) : double := fdiv (s_rho s) (fdot (Dot_pq k) (s_p s) (fproduct k (s_p s))).
(** C:353-358 and C:372-379: one iteration; its last part (z, rho1, beta, p) is only made if the test of C:369 fails, and only used then. *)
Definition step (k : nat) (s : state) : state :=
  let q := fproduct k (s_p s) in
  let alpha := step_length k s in
  let x := faxpy (s_x s) alpha (s_p s) in
  let r := faxmy (s_r s) alpha q in
  let z := precond r in
  let rho1 := fdot (Rho (S k)) r z in
  let beta := fdiv rho1 (s_rho s) in
  State x r (faxpy z beta (s_p s)) rho1.

(** What a solve leaves: x, the returned flag, p_squared_residuals and the number given to the timer (C:398). *)
Record outcome := Outcome { solution : vector; converged : bool; squared_residuals : list double; nb_iterations : nat }.

(** C:350-384: [fuel] is maximum_number_of_iterations - iteration_number and [k] is iteration_number. *)
Fixpoint iterations (threshold : double) (fuel k : nat) (s : state) (residuals : list double) : outcome :=
  match fuel with
  | O => Outcome (s_x s) false residuals k
  | S fuel =>
      let s' := step k s in
      let r_norm_2 := fsquaredNorm (Norm (S k)) (s_r s') in
      let residuals := residuals ++ [r_norm_2] in
      if flt r_norm_2 threshold then Outcome (s_x s') true residuals (S k)
      else iterations threshold fuel (S k) s' residuals
  end.

(** C:317: std::numeric_limits<double>::min() *)
Definition min_double : double := (dbl 1 (-1022))%Z.
(** std::max(a, c) *)
Definition fmax (a c : double) : double := if flt a c then c else a.
(** C:331 *)
Definition threshold_of (tolerance b_norm_2 : double) : double := fmax (fmul (fmul tolerance tolerance) b_norm_2) min_double.
(** C:334, C:345-346: the state before the first iteration. *)
Definition first_state (b x : vector) : state :=
  let r := fresidual b x in let p := precond r in State x r p (fdot (Rho 0) r p).

(** C:300-400.  The early exits leave the flag false (C:315) and give 0 + 1 to the timer (C:314, C:398). *)
Definition solve (maximum_number_of_iterations : nat) (tolerance : double) (b x : vector) : outcome :=
  let b_norm_2 := fsquaredNorm NormB b in
  if flt b_norm_2 EPS then Outcome (map (fun _ => of_int 0) x) false [] 1
  else
    let threshold := threshold_of tolerance b_norm_2 in
    let s := first_state b x in
    if flt (fsquaredNorm (Norm 0) (s_r s)) threshold then Outcome x false [] 1
    else iterations threshold maximum_number_of_iterations 0 s [].

(** EigenSolver.inl:190-205: the vector of the mechanical objects after solveSystem; [x] is the one before (it is also
    the initial guess, EigenSolver.inl:171-187). *)
Definition solveSystem (maximum_number_of_iterations : nat) (tolerance : double) (b x : vector) : vector :=
  let o := solve maximum_number_of_iterations tolerance b x in if converged o then solution o else x.

(** The state before iteration k when the test of C:369 is left out. *)
Fixpoint state_at (b x : vector) (k : nat) : state :=
  match k with O => first_state b x | S k => step k (state_at b x k) end.
End Solve.
