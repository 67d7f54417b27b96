(** Vocabulary for C108: a mechanical system given to the Newton-Raphson solver in other units. *)

From mathcomp Require Import all_ssreflect all_algebra.
From Verif Require Import CGModel NewtonModel NewtonSpec.
Set Implicit Arguments.
Unset Strict Implicit.
Unset Printing Implicit Defensive.
Import GRing.Theory Num.Theory.
Local Open Scope ring_scope.

Section Spec.
Variable F : realFieldType.
Variable V : lmodType F.
Variable dotV : V -> V -> F.
Variables (S S' Mx Mx' : Type).

(** The dot product of a vector measured in another unit. *)
Definition homogeneous : Prop := forall (c : F) (u : V), dotV (c *: u) (c *: u) = c * c * dotV u u.
Definition times (c : F) (v : option V) : option V := omap (fun v => c *: v) v.
Definition answer_in_units (a : F) (x : answer V) : answer V := if x is Solved dx then Solved (times a dx) else Failed.

(** Lengths times a, forces times k: [state] and [mat] translate the states and the matrices. *)
Definition same_system (a k : F) (state : S -> S') (mat : Mx -> Mx') (sys : system V S Mx) (sys' : system V S' Mx') : Prop :=
  [/\ forall s, rhs sys' (state s) = times k (rhs sys s), forall s, matrix sys' (state s) = mat (matrix sys s) &
      forall s dx, propagate sys' (state s) (times a dx) = state (propagate sys s dx)].
(** The linear solvers agree on the linear systems of the two mechanical systems; nothing is asked on others. *)
Definition same_solver (a k : F) (mat : Mx -> Mx') (sys : system V S Mx) (ls : linear_solver V Mx) (ls' : linear_solver V Mx') : Prop :=
  [/\ forall n s, analyze_pattern ls' n (mat (matrix sys s)) = analyze_pattern ls n (matrix sys s),
      forall n s, factorize ls' n (mat (matrix sys s)) = factorize ls n (matrix sys s) &
      forall n s, lsolve ls' n (mat (matrix sys s)) (times k (rhs sys s)) = answer_in_units a (lsolve ls n (matrix sys s) (rhs sys s))].
(** The absolute tolerance is a force; EPSILON is a constant of the code. *)
Definition config_in_units (k : F) (cfg : config F) : config F :=
  Config (EPSILON cfg) (newton_iterations cfg) (correction_tolerance_threshold cfg) (residual_tolerance_threshold cfg)
    (k * absolute_residual_tolerance_threshold cfg) (pattern_strategy cfg).
(** The solver keeps squared norms of forces. *)
Definition component_in_units (k : F) (c : component F) : component F :=
  Component (has_already_analyzed_the_pattern c) (d_converged c) (map (oscale (k * k)) (p_squared_residuals c))
    (oscale (k * k) (p_squared_initial_residual c)).
(** The displacements reached, from the first iteration on, are not negligible: their squared norms reach EPSILON in both units. *)
Definition not_negligible (a : F) (cfg : config F) (incs : seq (option V)) : Prop :=
  forall j U, (0 < j <= size incs)%N -> sum_of (take j incs) = Some U -> EPSILON cfg <= dotV U U /\ EPSILON cfg <= a * a * dotV U U.
End Spec.

(** The same body for the static solver: forces times k, so stiffnesses times k / a, and the same fixed degrees of freedom. *)
Definition same_mechanics (F : realFieldType) (n : nat) (a k : F) (me me' : mechanics F n) : Prop :=
  [/\ proj me *m proj me = proj me, proj me' = proj me, forall x, force me' (a *: x) = k *: force me x &
      forall x, stiffness me' (a *: x) = (k / a) *: stiffness me x].
(** A direct linear solver: it fails on singular matrices. *)
Definition direct (F : realFieldType) (n : nat) : linear_solver [lmodType F of 'cV[F]_n] (option 'M[F]_n) :=
  @LinearSolver _ [lmodType F of 'cV[F]_n] (option 'M[F]_n) (fun _ _ => true) (fun _ A => if A is Some A then A \in unitmx else true)
    (fun _ A r => if A is Some A then if A \in unitmx then Solved (omap (fun r : 'cV[F]_n => invmx A *m r) r) else Failed else Solved None).
