(** Model of the conjugate gradient solver,
    /repo/src/SofaCaribou/Solver/ConjugateGradientSolver.inl (cited as C:lines), and of the call that stores its result,
    /repo/src/SofaCaribou/Solver/EigenSolver.inl:190-205.
    Numbers are those of any ordered field (exact arithmetic).  A division by zero, which gives infinities or NaN in the
    code, ends the model with [Undefined]: the comparisons with the threshold are then false and the code never reports
    convergence.  (One difference: when the only bad division is that of the coefficient beta in the last allowed
    iteration, the code still returns the defined vector x, with converged = false.)  [zero] stands for the smallest positive floating point number and [EPSILON] for the constant of
    /repo/src/Caribou/Config/config.h.in:19-22. *)

From mathcomp Require Import all_ssreflect all_algebra.
Set Implicit Arguments.
Unset Strict Implicit.
Unset Printing Implicit Defensive.
Import GRing.Theory Num.Theory.
Local Open Scope ring_scope.

Section ConjugateGradient.
Variable F : realFieldType.
Variable n : nat.
Implicit Types (A : 'M[F]_n) (x r p q z b : 'cV[F]_n).

Definition dot (u v : 'cV[F]_n) : F := \sum_i u i 0 * v i 0.
Definition squaredNorm (u : 'cV[F]_n) : F := dot u u.

(** What a solve leaves: the vector x, the returned flag, p_squared_residuals, and the number of iterations given to
    the timer (C:398). *)
Record outcome := Outcome { solution : 'cV[F]_n; converged : bool; squared_residuals : seq F; nb_iterations : nat }.
Inductive result := Defined (o : outcome) | Undefined.

(** C:350-384: the loop, with [fuel] = maximum_number_of_iterations - iteration_number.  [precond] is
    precond.solve. *)
Fixpoint iterations A (precond : 'cV[F]_n -> 'cV[F]_n) (threshold : F) (fuel : nat) x r p (rho0 : F) (residuals : seq F)
    (iteration_number : nat) : result :=
  match fuel with
  | O => Defined (Outcome x false residuals iteration_number)
  | S fuel =>
      let q := A *m p in
      if dot p q == 0 then Undefined
      else
        let alpha := rho0 / dot p q in
        let x := x + alpha *: p in
        let r := r - alpha *: q in
        let r_norm_2 := squaredNorm r in
        let residuals := rcons residuals r_norm_2 in
        if r_norm_2 < threshold then Defined (Outcome x true residuals iteration_number.+1)
        else
          let z := precond r in
          let rho1 := dot r z in
          if rho0 == 0 then Undefined
          else
            let beta := rho1 / rho0 in
            iterations A precond threshold fuel x r (z + beta *: p) rho1 residuals iteration_number.+1
  end.

(** C:300-400.  The early exits leave the flag false (C:315) and give 0 + 1 to the timer (C:314, C:398); after the
    loop, iteration_number-1+1 is given (the decrement of 0 wraps around and is undone). *)
Definition solve (EPSILON zero : F) (maximum_number_of_iterations : nat) (residual_tolerance_threshold : F)
    (precond : 'cV[F]_n -> 'cV[F]_n) A b x : result :=
  let b_norm_2 := squaredNorm b in
  if b_norm_2 < EPSILON then Defined (Outcome 0 false [::] 1)
  else
    let threshold := Num.max (residual_tolerance_threshold * residual_tolerance_threshold * b_norm_2) zero in
    let r := b - A *m x in
    if squaredNorm r < threshold then Defined (Outcome x false [::] 1)
    else
      let p := precond r in
      iterations A precond threshold maximum_number_of_iterations x r p (dot r p) [::] 0.

(** C:175-296: the method without assembled matrix: the product is projectResponse(A p).  The projection is a matrix.
    Here the direction is the residual itself and rho is its squared norm. *)
Fixpoint free_iterations (PA : 'M[F]_n) (threshold : F) (fuel : nat) x r p (rho0 : F) (residuals : seq F)
    (iteration_number : nat) : result :=
  match fuel with
  | O => Defined (Outcome x false residuals iteration_number)
  | S fuel =>
      let q := PA *m p in
      if dot p q == 0 then Undefined
      else
        let alpha := rho0 / dot p q in
        let x := x + alpha *: p in
        let r := r - alpha *: q in
        let r_norm_2 := squaredNorm r in
        let residuals := rcons residuals r_norm_2 in
        if r_norm_2 < threshold then Defined (Outcome x true residuals iteration_number.+1)
        else
          let rho1 := r_norm_2 in
          if rho0 == 0 then Undefined
          else
            let beta := rho1 / rho0 in
            free_iterations PA threshold fuel x r (r + beta *: p) rho1 residuals iteration_number.+1
  end.
Definition free_solve (EPSILON zero : F) (maximum_number_of_iterations : nat) (residual_tolerance_threshold : F)
    (projection A : 'M[F]_n) b x : result :=
  let b_norm_2 := squaredNorm b in
  if b_norm_2 < EPSILON then Defined (Outcome 0 false [::] 1)
  else
    let threshold := Num.max (residual_tolerance_threshold * residual_tolerance_threshold * b_norm_2) zero in
    let r := b - projection *m (A *m x) in
    if squaredNorm r < threshold then Defined (Outcome x false [::] 1)
    else free_iterations (projection *m A) threshold maximum_number_of_iterations x r r (squaredNorm r) [::] 0.

(** C:466-480: the preconditioners.  Eigen's IdentityPreconditioner returns its argument; Eigen's DiagonalPreconditioner
    multiplies by the inverse of the diagonal entries (by 1 where the entry is zero).  The two incomplete factorizations
    are not modelled in detail: they are arbitrary functions [precond]. *)
Definition identity_preconditioner : 'M[F]_n := 1%:M.
Definition diagonal_preconditioner (A : 'M[F]_n) : 'M[F]_n :=
  diag_mx (\row_j (if A j j == 0 then 1 else (A j j)^-1)).

(** EigenSolver.inl:190-205: the vector of the mechanical objects after solveSystem; [x] is the one before (it is also
    the initial guess, EigenSolver.inl:171-187). *)
Definition solveSystem (EPSILON zero : F) (maximum_number_of_iterations : nat) (residual_tolerance_threshold : F)
    (precond : 'cV[F]_n -> 'cV[F]_n) A b x : 'cV[F]_n :=
  match solve EPSILON zero maximum_number_of_iterations residual_tolerance_threshold precond A b x with
  | Defined o => if converged o then solution o else x
  | Undefined => x
  end.
End ConjugateGradient.
Arguments Undefined {F n}.
