(** Model of the Newton-Raphson loop and of the two ODE solvers built on it:
    /repo/src/SofaCaribou/Ode/NewtonRaphsonSolver.cpp (cited as N:lines), StaticODESolver.cpp (S:lines) and
    BackwardEulerODESolver.cpp (B:lines).
    Exact arithmetic in any ordered field F; [None] is a number or a vector that is not a number (NaN): comparisons with
    it are false.  Vectors are elements of any vector space V with a dot product.  Mechanical mappings, constraint solvers
    (solveConstraint) and timers are not modelled. *)

From mathcomp Require Import all_ssreflect all_algebra.
From Verif Require Import CGModel.
Set Implicit Arguments.
Unset Strict Implicit.
Unset Printing Implicit Defensive.
Import GRing.Theory Num.Theory.
Local Open Scope ring_scope.

(** NewtonRaphsonSolver.h: enum class PatternAnalysisStrategy. *)
Inductive strategy := NEVER | BEGINNING_OF_THE_SIMULATION | BEGINNING_OF_THE_TIME_STEP | ALWAYS.

Inductive status := Running | Converged | Diverged.
Definition is_running s := if s is Running then true else false.
Definition is_converged s := if s is Converged then true else false.

Section Newton.
Variable F : realFieldType.
Variable V : lmodType F.
Variable dotV : V -> V -> F.
Variables (S Mx : Type).

Definition norm2 (v : option V) : option F := omap (fun v => dotV v v) v.
Definition oadd (u v : option V) : option V :=
  match u, v with Some u, Some v => Some (u + v) | _, _ => None end.
Definition olt (a b : option F) : bool := match a, b with Some a, Some b => a < b | _, _ => false end.
Definition ole (a b : option F) : bool := match a, b with Some a, Some b => a <= b | _, _ => false end.
Definition oscale (c : F) (a : option F) : option F := omap (fun a => c * a) a.
Definition isnan {T} (a : option T) : bool := if a is None then true else false.

(** The data fields of the component (N:27-71); [EPSILON] is that of config.h. *)
Record config := Config {
  EPSILON : F; newton_iterations : nat; correction_tolerance_threshold : F; residual_tolerance_threshold : F;
  absolute_residual_tolerance_threshold : F; pattern_strategy : strategy }.

(** The three virtual functions a concrete ODE solver gives: assemble_rhs_vector, assemble_system_matrix and
    propagate_solution_increment, on the state S of the mechanical objects. *)
Record system := System { rhs : S -> option V; matrix : S -> Mx; propagate : S -> option V -> S }.

(** The linear solver: its three functions answer arbitrarily, and not always in the same way: they also receive the
    number of iterations done.  [Failed] is a solve that returns false. *)
Inductive answer := Failed | Solved (dx : option V).
Record linear_solver := LinearSolver {
  analyze_pattern : nat -> Mx -> bool; factorize : nat -> Mx -> bool; lsolve : nat -> Mx -> option V -> answer }.

(** The local variables of the loop.  [increments] (the solutions of the linear systems), [analyses] (the answers of
    analyze_pattern) and [assemblies] (the number of matrices assembled) record what happened; the number n_it is the size
    of [residuals]. *)
Record progress := Progress {
  st : S; rhs_vector : option V; R_squared_norm : option F; total : option V; increments : seq (option V);
  residuals : seq (option F); already_analyzed : bool; analyses : seq bool; assemblies : nat; stopped : status }.

(** N:264-270 *)
Definition must_analyze (s : strategy) (already : bool) : bool :=
  match s with
  | NEVER => false
  | ALWAYS => true
  | BEGINNING_OF_THE_TIME_STEP | BEGINNING_OF_THE_SIMULATION => ~~ already
  end.

(** N:377-399, after N:358-374. *)
Definition check (cfg : config) (R dx2 du2 R1 : option F) : status :=
  let sq c := c * c in
  if isnan R || isnan dx2 || olt du2 (Some (EPSILON cfg)) then Diverged
  else if (0 < correction_tolerance_threshold cfg) && olt dx2 (oscale (sq (correction_tolerance_threshold cfg)) du2)
  then Converged
  else if (0 < residual_tolerance_threshold cfg) && olt R (oscale (sq (residual_tolerance_threshold cfg)) R1)
  then Converged
  else if (0 < absolute_residual_tolerance_threshold cfg) &&
          olt R (Some (sq (absolute_residual_tolerance_threshold cfg)))
  then Converged
  else Running.

(** N:248-403: one turn of the loop. *)
Definition iteration (cfg : config) (sys : system) (ls : linear_solver) (p : progress) : progress :=
  let n_it := size (residuals p) in
  let A := matrix sys (st p) in
  let assemblies := (assemblies p).+1 in
  let analyze := must_analyze (pattern_strategy cfg) (already_analyzed p) in
  let ok := analyze_pattern ls n_it A in
  let analyses := if analyze then rcons (analyses p) ok else analyses p in
  let failure already := Progress (st p) (rhs_vector p) (R_squared_norm p) (total p) (increments p) (residuals p)
                           already analyses assemblies Diverged in
  if analyze && ~~ ok then failure (already_analyzed p)
  else
    let already := analyze || already_analyzed p in
    if ~~ factorize ls n_it A then failure already
    else match lsolve ls n_it A (rhs_vector p) with
    | Failed => failure already
    | Solved dx =>
        let s := propagate sys (st p) dx in
        let f := if (1 < newton_iterations cfg)%N then rhs sys s else rhs_vector p in
        let R := if (1 < newton_iterations cfg)%N then norm2 f else R_squared_norm p in
        let U := oadd (total p) dx in
        let residuals := rcons (residuals p) R in
        Progress s f R U (rcons (increments p) dx) residuals already analyses assemblies
          (check cfg R (norm2 dx) (norm2 U) (head None residuals))
    end.

Fixpoint loop (cfg : config) (sys : system) (ls : linear_solver) (fuel : nat) (p : progress) : progress :=
  match fuel with
  | O => p
  | fuel.+1 => let p := iteration cfg sys ls p in if is_running (stopped p) then loop cfg sys ls fuel p else p
  end.

(** What the component keeps between two calls: p_has_already_analyzed_the_pattern, d_converged, p_squared_residuals
    and p_squared_initial_residual. *)
Record component := Component {
  has_already_analyzed_the_pattern : bool; d_converged : bool; p_squared_residuals : seq (option F);
  p_squared_initial_residual : option F }.

(** N:127-242: before the loop. *)
Definition start (cfg : config) (sys : system) (c : component) (s : S) : progress :=
  let already := if pattern_strategy cfg is BEGINNING_OF_THE_TIME_STEP then false
                 else has_already_analyzed_the_pattern c in
  let f := rhs sys s in
  let R := norm2 f in
  let t := absolute_residual_tolerance_threshold cfg in
  Progress s f R (Some 0) [::] [::] already [::] 0 (if (0 < t) && ole R (Some (t * t)) then Converged else Running).

(** N:73-417: one call, and the progress at its end. *)
Definition solve_progress (cfg : config) (sys : system) (ls : linear_solver) (c : component) (s : S) : progress :=
  let p := start cfg sys c s in
  if is_running (stopped p) then loop cfg sys ls (newton_iterations cfg) p else p.

(** [ls] = None: no valid linear solver (N:80-89): nothing is done. *)
Definition solve (cfg : config) (sys : system) (ls : option linear_solver) (c : component) (s : S) : S * component :=
  match ls with
  | None => (s, c)
  | Some ls =>
      let p := solve_progress cfg sys ls c s in
      (st p, Component (already_analyzed p) (is_converged (stopped p)) (residuals p) (norm2 (rhs sys s)))
  end.

(** N:419-420, N:472-474. *)
Definition reset (c : component) : component :=
  Component false (d_converged c) (p_squared_residuals c) (p_squared_initial_residual c).
End Newton.
Arguments Failed {F V}.

(** ** The two ODE solvers, on column vectors. *)
Section Ode.
Variable F : realFieldType.
Variable n : nat.
Local Notation vec := ('cV[F]_n).
Local Notation mat := ('M[F]_n).

(** The mechanical model: force of the force fields (addForce), their stiffness (addKToMatrix/addDForce, by SOFA's
    convention the derivative of the force), damping (B) and mass matrices, and the projection of the projective
    constraints (projectResponse); all may depend on the position. *)
Record mechanics := Mechanics { force : vec -> vec; stiffness : vec -> mat; damping : vec -> mat; mass : mat; proj : mat }.

(** visitor::ConstrainGlobalMatrix (applyConstraint): rows and columns of the fixed degrees of freedom become those of the
    identity. *)
Definition constrain (P A : mat) : mat := P *m A *m P + (1%:M - P).

(** addMBKdx: m M dx + b B dx + k K dx. *)
Definition addMBKdx (me : mechanics) (x : vec) (m b k : F) (dx : vec) : vec :=
  m *: (mass me *m dx) + b *: (damping me x *m dx) + k *: (stiffness me x *m dx).
Definition mbk_matrix (me : mechanics) (x : vec) (m b k : F) : mat :=
  m *: mass me + b *: damping me x + k *: stiffness me x.

(** S:34-125.  The state is the position; it is NaN as soon as an increment is. *)
Definition static_system (me : mechanics) : system [lmodType F of vec] (option vec) (option mat) :=
  @System _ [lmodType F of vec] (option vec) (option mat)
    (omap (fun x => proj me *m force me x))
    (omap (fun x => constrain (proj me) (mbk_matrix me x 0 0 (-1))))
    (fun x dx => oadd (V := [lmodType F of vec]) x dx).

(** B:55-242.  The state: position and velocity at the beginning of the step, acceleration, velocity, position. *)
Record dynamic_state := Dyn { previous_x : vec; previous_v : vec; acceleration : vec; velocity : vec; position : vec }.
(** B:55-72 *)
Definition begin_step (x v : vec) : dynamic_state := Dyn x v 0 v x.
(** B:80-156 *)
Definition euler_rhs (me : mechanics) (h r_m r_k : F) (s : dynamic_state) : vec :=
  let x := position s in
  proj me *m (force me x + addMBKdx me x (- r_m) (-1) r_k (previous_v s)
              + addMBKdx me x (- (1 + h * r_m)) (- h) (h * r_k) (acceleration s)).
(** B:160-199 *)
Definition euler_matrix (me : mechanics) (h r_m r_k : F) (s : dynamic_state) : mat :=
  constrain (proj me) (mbk_matrix me (position s) (1 + h * r_m) h (- h * (h + r_k))).
(** B:202-242 *)
Definition euler_propagate (h : F) (s : dynamic_state) (da : vec) : dynamic_state :=
  let a := acceleration s + da in
  let v := previous_v s + h *: a in
  let x := previous_x s + h *: v in
  Dyn (previous_x s) (previous_v s) a v x.
Definition euler_system (me : mechanics) (h r_m r_k : F) : system [lmodType F of vec] (option dynamic_state) (option mat) :=
  @System _ [lmodType F of vec] (option dynamic_state) (option mat)
    (omap (euler_rhs me h r_m r_k))
    (omap (euler_matrix me h r_m r_k))
    (fun s da => match s, da with Some s, Some da => Some (euler_propagate h s da) | _, _ => None end).
End Ode.
