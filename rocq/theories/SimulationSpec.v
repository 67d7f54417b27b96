(** Vocabulary for C101: Newton's method with the exact solution of each linear system, and histories. *)

From Coq Require Import Reals List Arith Bool.
From Verif Require Import DirectModel DirectSpec SimulationModel.
Import ListNotations.
Open Scope R_scope.

(** The decomposition of the kind d can deal with the matrix: its pattern and its values. *)
Definition can_solve (decompose : decomposition -> nat -> (nat -> nat -> R) -> option (list R -> list R)) (analysable : decomposition -> pattern -> bool)
    (d : decomposition) (A : matrix) : Prop := analysable d (pattern_read d A) = true /\ decompose d (rows A) (read_by d (value A)) <> None.

(** Newton's method: at most n iterations from the state s, the increments [before] being made already.  Each iteration moves by a solution of the
    current system; the method ends when the tests say so, after the last iteration, or at a system that cannot be solved. *)
Inductive newton {S : Type} (solvable : matrix -> Prop) (sys : system S) (tests : list (list R) -> S -> status) :
    nat -> list (list R) -> S -> list (list R) -> S -> bool -> Prop :=
| newton_exhausted : forall before s, newton solvable sys tests 0 before s [] s false
| newton_unsolvable : forall n before s, ~ solvable (system_matrix S sys s) -> newton solvable sys tests (Datatypes.S n) before s [] s false
| newton_converged : forall n before s dx, solvable (system_matrix S sys s) -> solution (system_matrix S sys s) (rhs S sys s) dx ->
    tests (before ++ [dx]) (propagate S sys s dx) = Converged -> newton solvable sys tests (Datatypes.S n) before s [dx] (propagate S sys s dx) true
| newton_diverged : forall n before s dx, solvable (system_matrix S sys s) -> solution (system_matrix S sys s) (rhs S sys s) dx ->
    tests (before ++ [dx]) (propagate S sys s dx) = Diverged -> newton solvable sys tests (Datatypes.S n) before s [dx] (propagate S sys s dx) false
| newton_next : forall n before s dx later s' converged, solvable (system_matrix S sys s) -> solution (system_matrix S sys s) (rhs S sys s) dx ->
    tests (before ++ [dx]) (propagate S sys s dx) = Running -> newton solvable sys tests n (before ++ [dx]) (propagate S sys s dx) later s' converged ->
    newton solvable sys tests (Datatypes.S n) before s (dx :: later) s' converged.

(** A time step: nothing if the initial state passes the test, Newton's method otherwise. *)
Definition newton_step {S : Type} (solvable : matrix -> Prop) (sys : system S) (c : settings S) (s : S) (l : list (list R)) (s' : S) (converged : bool) : Prop :=
  match tests S c [] s with
  | Converged => l = [] /\ s' = s /\ converged = true
  | _ => newton solvable sys (tests S c) (newton_iterations S c) [] s l s' converged
  end.

(** The Caribou linear solver that the ODE solver is linked to. *)
Definition linked {S : Type} (sc : scene S) (d : decomposition) : Prop :=
  exists k e, l_linear_solver (solver S sc) = Some k /\ nth_error (solvers S sc) k = Some (Some (d, e)).

(** The link changes only when it is given another value, or at an initialisation. *)
Definition link_right {S : Type} (ev : event S) (sc sc' : scene S) : Prop :=
  match ev with
  | Link _ k => l_linear_solver (solver S sc') = k
  | Init _ _ => True
  | _ => l_linear_solver (solver S sc') = l_linear_solver (solver S sc)
  end.
(** Every event does what it should: a step is a step of Newton's method with the linked solver, or nothing if there is none; the others do not move. *)
Definition event_right {S : Type} decompose analysable (sys : system S) (ev : event S) (sc sc' : scene S) (l : list (list R)) : Prop :=
  link_right ev sc sc' /\
  match ev with
  | Step _ c =>
    (forall d, linked sc d -> newton_step (can_solve decompose analysable d) sys c (state S sc) l (state S sc') (d_converged (solver S sc'))) /\
    ((forall d, ~ linked sc d) -> sc' = sc /\ l = [])
  | _ => l = [] /\ state S sc' = state S sc
  end.
Fixpoint history_right {S : Type} decompose analysable (sys : system S) (sc : scene S) (h : list (event S)) (trace : list (scene S * list (list R))) : Prop :=
  match h, trace with
  | [], [] => True
  | ev :: h, (sc', l) :: trace => event_right decompose analysable sys ev sc sc' l /\ history_right decompose analysable sys sc' h trace
  | _, _ => False
  end.

(** The steps of the history use the strategy. *)
Definition strategy_of {S : Type} (s : strategy) (h : list (event S)) : Prop := Forall (fun ev => match ev with Step _ c => pattern_strategy S c = s | _ => True end) h.
(** As many right-hand sides as rows, and symmetric matrices unless all the Caribou solvers are LU ones. *)
Definition well_posed {S : Type} (sys : system S) (sc : scene S) : Prop :=
  forall s, length (rhs S sys s) = rows (system_matrix S sys s) /\
    (symmetric (system_matrix S sys s) \/ forall k d e, nth_error (solvers S sc) k = Some (Some (d, e)) -> d = LU).
(** The stored positions of the matrix. *)
Definition positions (A : matrix) : nat * list (nat * nat) := (rows A, stored A).
(** Between a change of the attribute linear_solver and the next step the ODE solver is initialised or reset ([changed]: a change is pending). *)
Fixpoint initialised_after_links {S : Type} (changed : bool) (h : list (event S)) : Prop :=
  match h with
  | [] => True
  | Link _ _ :: h => initialised_after_links true h
  | Init _ _ :: h | Reset _ :: h => initialised_after_links false h
  | Step _ _ :: h => changed = false /\ initialised_after_links changed h
  | Elsewhere _ _ _ :: h => initialised_after_links changed h
  end.
