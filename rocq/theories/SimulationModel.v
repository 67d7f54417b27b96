(** A Caribou ODE solver and its linear solver over a whole simulation: /repo/src/SofaCaribou/Ode/NewtonRaphsonSolver.cpp
    (N; init 419-472, reset 474-476, has_valid_linear_solver 478-483, the loop 73-417), on the direct solvers of DirectModel.v.
    Simplifications: the convergence tests of the loop (N:237-246, 358-399; C47, C48) are an arbitrary function of the increments made
    and of the state; exact reals; the object that the attribute linear_solver points to is a number in the list of the linear solvers of
    the scene, without an object if there is none at that path; what other ODE solvers do with a linear solver is one complete use of it. *)

From Coq Require Import Reals List Arith Bool.
From Verif Require Import DirectModel.
Import ListNotations.
Open Scope R_scope.

(** NewtonRaphsonSolver.h: PatternAnalysisStrategy. *)
Inductive strategy := NEVER | BEGINNING_OF_THE_SIMULATION | BEGINNING_OF_THE_TIME_STEP | ALWAYS.
Inductive status := Running | Converged | Diverged.

Section Simulation.
Variable decompose : decomposition -> nat -> (nat -> nat -> R) -> option (list R -> list R).
Variable analysable : decomposition -> pattern -> bool.
Variable S : Type.

(** assemble_rhs_vector, assemble_system_matrix and propagate_solution_increment of the ODE solver. *)
Record system := System { rhs : S -> list R; system_matrix : S -> matrix; propagate : S -> list R -> S }.
Record settings := Settings { pattern_strategy : strategy; newton_iterations : nat; tests : list (list R) -> S -> status }.

(** The ODE solver: l_linear_solver, p_has_already_analyzed_the_pattern, d_converged. *)
Record ode := Ode { l_linear_solver : option nat; p_has_already_analyzed_the_pattern : bool; d_converged : bool }.
(** The linear solvers of the scene (None: a solver of SOFA, that is not a Caribou one), the ODE solver, the mechanical objects. *)
Record scene := Scene { solvers : list (option (decomposition * eigen)); solver : ode; state : S }.

(** N:478-483: the number and the object of a valid linear solver. *)
Definition caribou_solver (sc : scene) (k : nat) : option (decomposition * eigen) :=
  match nth_error (solvers sc) k with Some (Some s) => Some s | _ => None end.
Definition valid_linear_solver (sc : scene) : option (nat * (decomposition * eigen)) :=
  match l_linear_solver (solver sc) with
  | Some k => match caribou_solver sc k with Some s => Some (k, s) | None => None end
  | None => None
  end.
Fixpoint set_nth {A : Type} (k : nat) (a : A) (l : list A) : list A :=
  match l, k with [], _ => [] | _ :: l, O => a :: l | x :: l, Datatypes.S k => x :: set_nth k a l end.

(** N:419-472: [node] lists the linear solvers of the node of the ODE solver. *)
Definition init (node : list nat) (sc : scene) : scene :=
  let o := solver sc in
  let link := match valid_linear_solver sc with
              | Some _ => l_linear_solver o
              | None => match filter (fun k => match caribou_solver sc k with Some _ => true | None => false end) node with
                        | [] => l_linear_solver o
                        | k :: _ => Some k
                        end
              end in
  Scene (solvers sc) (Ode link false (d_converged o)) (state sc).
(** N:474-476. *)
Definition reset (sc : scene) : scene :=
  Scene (solvers sc) (Ode (l_linear_solver (solver sc)) false (d_converged (solver sc))) (state sc).
(** The attribute linear_solver is given another value. *)
Definition set_link (k : option nat) (sc : scene) : scene :=
  Scene (solvers sc) (Ode k (p_has_already_analyzed_the_pattern (solver sc)) (d_converged (solver sc))) (state sc).

(** N:264-270. *)
Definition must_analyze (s : strategy) (already : bool) : bool :=
  match s with
  | NEVER => false
  | ALWAYS => true
  | BEGINNING_OF_THE_TIME_STEP | BEGINNING_OF_THE_SIMULATION => negb already
  end.

Record progress := Progress { object : eigen; already : bool; at_state : S; increments : list (list R); verdict : status }.
(** N:248-403: the iterations. *)
Fixpoint iterate (sys : system) (c : settings) (d : decomposition) (fuel : nat) (p : progress) : outcome progress :=
  match fuel, verdict p with
  | Datatypes.S fuel, Running =>
    let A := system_matrix sys (at_state p) in
    let analyze := must_analyze (pattern_strategy c) (already p) in
    let (e, ok) := if analyze then analyze_pattern analysable d A (object p) else (object p, true) in
    if negb ok then Done (Progress e (already p) (at_state p) (increments p) Diverged)
    else
      let done := analyze || already p in
      match factorize decompose d A e with
      | Misuse => Misuse
      | Done (e, false) => Done (Progress e done (at_state p) (increments p) Diverged)
      | Done (e, true) =>
        match solve d e (rhs sys (at_state p)) (last (increments p) (repeat 0 (rows A))) with
        | Misuse => Misuse
        | Done (_, false) => Done (Progress e done (at_state p) (increments p) Diverged)
        | Done (dx, true) =>
          let s := propagate sys (at_state p) dx in
          let l := increments p ++ [dx] in
          iterate sys c d fuel (Progress e done s l (tests c l s))
        end
      end
  | _, _ => Done p
  end.
(** N:73-417: a time step. *)
Definition step (sys : system) (c : settings) (sc : scene) : outcome (scene * list (list R)) :=
  match valid_linear_solver sc with
  | None => Done (sc, [])
  | Some (k, (d, e)) =>
    let o := solver sc in
    let already0 := match pattern_strategy c with BEGINNING_OF_THE_TIME_STEP => false | _ => p_has_already_analyzed_the_pattern o end in
    let start := match tests c [] (state sc) with Converged => Converged | _ => Running end in
    match iterate sys c d (newton_iterations c) (Progress e already0 (state sc) [] start) with
    | Misuse => Misuse
    | Done p => Done (Scene (set_nth k (Some (d, object p)) (solvers sc))
                        (Ode (Some k) (already p) (match verdict p with Converged => true | _ => false end)) (at_state p), increments p)
    end
  end.
(** Another ODE solver uses the linear solver number k for its own matrix. *)
Definition elsewhere (k : nat) (A : matrix) (sc : scene) : scene :=
  match caribou_solver sc k with
  | Some (d, e) =>
    let e := fst (analyze_pattern analysable d A e) in
    let e := match factorize decompose d A e with Done (e, _) => e | Misuse => e end in
    Scene (set_nth k (Some (d, e)) (solvers sc)) (solver sc) (state sc)
  | None => sc
  end.

Inductive event := Init (node : list nat) | Reset | Link (k : option nat) | Step (c : settings) | Elsewhere (k : nat) (A : matrix).
Definition run_event (sys : system) (ev : event) (sc : scene) : outcome (scene * list (list R)) :=
  match ev with
  | Init node => Done (init node sc, [])
  | Reset => Done (reset sc, [])
  | Link k => Done (set_link k sc, [])
  | Step c => step sys c sc
  | Elsewhere k A => Done (elsewhere k A sc, [])
  end.
(** The scene after each event, with the increments made by the event. *)
Fixpoint run (sys : system) (h : list event) (sc : scene) : outcome (list (scene * list (list R))) :=
  match h with
  | [] => Done []
  | ev :: h => match run_event sys ev sc with
               | Misuse => Misuse
               | Done r => match run sys h (fst r) with Misuse => Misuse | Done l => Done (r :: l) end
               end
  end.
End Simulation.
