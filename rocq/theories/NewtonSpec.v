(** Vocabulary for the properties of the Newton-Raphson loop and of the ODE solvers. *)

From mathcomp Require Import all_ssreflect all_algebra.
From Verif Require Import CGModel NewtonModel.
Set Implicit Arguments.
Unset Strict Implicit.
Unset Printing Implicit Defensive.
Import GRing.Theory Num.Theory.
Local Open Scope ring_scope.

Section Spec.
Variable F : realFieldType.
Variable V : lmodType F.
Variable dotV : V -> V -> F.
Variables (S Mx : Type).

(** State after a list of increments, and their sum. *)
Definition state_after (sys : system V S Mx) (s0 : S) (incs : seq (option V)) : S := foldl (propagate sys) s0 incs.
Definition sum_of (incs : seq (option V)) : option V := foldl (@oadd F V) (Some 0) incs.

(** One of the configured criteria holds after the k-th iteration (k >= 1), for these increments and squared residuals
    of the iterations 1, 2, ... and this squared residual of reference. *)
Definition criterion (cfg : config F) (incs : seq (option V)) (R : seq (option F)) (reference : option F) (k : nat) : bool :=
  let c := correction_tolerance_threshold cfg in
  let r := residual_tolerance_threshold cfg in
  let a := absolute_residual_tolerance_threshold cfg in
  [|| (0 < c) && olt (norm2 dotV (nth None incs k.-1)) (oscale (c * c) (norm2 dotV (sum_of (take k incs)))),
      (0 < r) && olt (nth None R k.-1) (oscale (r * r) reference) |
      (0 < a) && olt (nth None R k.-1) (Some (a * a))].

(** The iteration produced something that is not a number, or a total increment that is (almost) zero. *)
Definition broken (cfg : config F) (incs : seq (option V)) (R : seq (option F)) (k : nat) : bool :=
  [|| isnan (nth None R k.-1), isnan (nth None incs k.-1) |
      olt (norm2 dotV (sum_of (take k incs))) (Some (EPSILON cfg))].

(** Calls of the user, in order; each solve may meet another system, another state and another behaviour of the linear
    solver. *)
Inductive call := Reset | Solve (sys : system V S Mx) (ls : linear_solver V Mx) (s : S).
Fixpoint history (cfg : config F) (c : component F) (calls : seq call) : seq (seq bool * nat) * component F :=
  match calls with
  | [::] => ([::], c)
  | Reset :: calls => history cfg (reset c) calls
  | Solve sys ls s :: calls =>
      let p := solve_progress dotV cfg sys ls c s in
      let r := history cfg (solve dotV cfg sys (Some ls) c s).2 calls in
      ((analyses p, assemblies p) :: r.1, r.2)
  end.
End Spec.
Arguments Reset {F V S Mx}.

Section OdeSpec.
Variable F : realFieldType.
Variable n : nat.
Local Notation vec := ('cV[F]_n).
Local Notation mat := ('M[F]_n).

(** The stiffness is the derivative of a force that is affine in the position; constant damping. *)
Definition affine_mechanics (me : mechanics F n) (g : vec) (K B : mat) : Prop :=
  (forall x, force me x = g + K *m x) /\ (forall x, stiffness me x = K) /\ (forall x, damping me x = B).
(** Projective constraints that fix degrees of freedom. *)
Definition projection (me : mechanics F n) : Prop := proj me *m proj me = proj me.
(** The linear solver answers with a solution of the system it was given. *)
Definition exact (ls : linear_solver [lmodType F of vec] (option mat)) : Prop :=
  forall k A f dx, lsolve ls k (Some A) (Some f) = Solved dx -> exists y, dx = Some y /\ A *m y = f.
(** Rayleigh damping r_m M + r_k (-K) (the stiffness of SOFA is minus the usual one) plus the damping matrix. *)
Definition rayleigh (me : mechanics F n) (r_m r_k : F) (x : vec) : mat :=
  r_m *: mass me + damping me x - r_k *: stiffness me x.
End OdeSpec.
