(** Model of the first static ODE solver, which has its own Newton loop:
    /repo/src/SofaCaribou/Ode/LegacyStaticODESolver.cpp (cited as L:lines).  Same conventions as NewtonModel: exact arithmetic
    in any ordered field, [None] is NaN; constraint solvers (solveConstraint), mappings and timers are not modelled. *)

From mathcomp Require Import all_ssreflect all_algebra.
From Verif Require Import CGModel NewtonModel.
Set Implicit Arguments.
Unset Strict Implicit.
Unset Printing Implicit Defensive.
Import GRing.Theory Num.Theory.
Local Open Scope ring_scope.

Section Legacy.
Variable F : realFieldType.
Variable V : lmodType F.
Variable dotV : V -> V -> F.
Variables (S Mx : Type).

(** The data fields (L:30-53). *)
Record legacy_config := LegacyConfig {
  l_EPSILON : F; l_newton_iterations : nat; l_correction_tolerance_threshold : F; l_residual_tolerance_threshold : F;
  shoud_diverge_when_residual_is_growing : bool; warm_start : bool }.

(** The linear solver receives the number of iterations done, the matrix (setSystemMBKMatrix), the right-hand side and the
    content of dx (setSystemLHVector); dx is written only if it succeeds (EigenSolver.inl:190-205, ConjugateGradientSolver
    likewise). *)
Definition legacy_solver := nat -> Mx -> option V -> option V -> answer V.

(** The local variables of the loop; [l_increments] records the content of dx at each iteration, n_it is the size of
    [l_residuals]. *)
Record legacy_progress := LegacyProgress {
  l_st : S; l_force : option V; l_dx : option V; l_U : option V; l_Rn : option F; l_increments : seq (option V);
  l_residuals : seq (option F); l_stopped : status }.

(** L:268-309 *)
Definition legacy_check (cfg : legacy_config) (n_it : nat) (R dx2 du2 R1 Rn : option F) : status :=
  let sq c := c * c in
  if isnan R || isnan dx2 || olt du2 (Some (l_EPSILON cfg)) then Diverged
  else if (0 < l_correction_tolerance_threshold cfg) && olt dx2 (oscale (sq (l_correction_tolerance_threshold cfg)) du2)
  then Converged
  else if (0 < l_residual_tolerance_threshold cfg) && olt R (oscale (sq (l_residual_tolerance_threshold cfg)) R1)
  then Converged
  else if [&& shoud_diverge_when_residual_is_growing cfg, olt Rn R & (1 < n_it)%N] then Diverged
  else Running.

(** L:169-319: one turn of the loop (matrix.solve: L:199). *)
Definition legacy_iteration (cfg : legacy_config) (sys : system V S Mx) (ls : legacy_solver) (p : legacy_progress) : legacy_progress :=
  let dx := match ls (size (l_residuals p)) (matrix sys (l_st p)) (l_force p) (l_dx p) with
            | Failed => l_dx p
            | Solved dx => dx
            end in
  let s := propagate sys (l_st p) dx in
  let f := rhs sys s in
  let R := norm2 dotV f in
  let U := oadd (l_U p) dx in
  let residuals := rcons (l_residuals p) R in
  LegacyProgress s f (if warm_start cfg then dx else Some 0) U R (rcons (l_increments p) dx) residuals
    (legacy_check cfg (size residuals) R (norm2 dotV dx) (norm2 dotV U) (head None residuals) (l_Rn p)).

Fixpoint legacy_loop (cfg : legacy_config) (sys : system V S Mx) (ls : legacy_solver) (fuel : nat) (p : legacy_progress) : legacy_progress :=
  match fuel with
  | O => p
  | fuel.+1 =>
      let p := legacy_iteration cfg sys ls p in if is_running (l_stopped p) then legacy_loop cfg sys ls fuel p else p
  end.

(** L:84-164; [dx] is the content of the vector left by the previous call. *)
Definition legacy_start (cfg : legacy_config) (sys : system V S Mx) (dx : option V) (s : S) : legacy_progress :=
  let f := rhs sys s in
  let R := norm2 dotV f in
  let t := l_residual_tolerance_threshold cfg in
  LegacyProgress s f (if warm_start cfg then dx else Some 0) (Some 0) (Some 0) [::] [::]
    (if (0 < t) && ole R (Some t) then Converged else Running).

(** L:56-328.  Results: the state, d_converged, p_squared_residuals and p_squared_initial_residual. *)
Definition legacy_progress_of (cfg : legacy_config) (sys : system V S Mx) (ls : legacy_solver) (dx : option V) (s : S) : legacy_progress :=
  let p := legacy_start cfg sys dx s in
  if is_running (l_stopped p) then legacy_loop cfg sys ls (l_newton_iterations cfg) p else p.
Record legacy_outcome := LegacyOutcome {
  l_final : S; l_converged : bool; l_squared_residuals : seq (option F); l_squared_initial_residual : option F }.
Definition legacy_solve (cfg : legacy_config) (sys : system V S Mx) (ls : legacy_solver) (dx : option V) (s : S) : legacy_outcome :=
  let p := legacy_progress_of cfg sys ls dx s in
  LegacyOutcome (l_st p) (is_converged (l_stopped p)) (l_residuals p) (norm2 dotV (rhs sys s)).
End Legacy.
