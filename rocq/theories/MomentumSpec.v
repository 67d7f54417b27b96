(** Vocabulary for C104: momentum and centre of mass. *)

From mathcomp Require Import all_ssreflect all_algebra.
From Verif Require Import CGModel NewtonModel NewtonSpec.
Set Implicit Arguments.
Unset Strict Implicit.
Unset Printing Implicit Defensive.
Import GRing.Theory Num.Theory.
Local Open Scope ring_scope.

Section Spec.
Variable F : realFieldType.
Variable n : nat.
Local Notation vec := ('cV[F]_n).

(** The part along w of the momentum of a velocity, and of the sum of the masses times the positions.  For a translation w
    (1 at the degrees of freedom of one axis, 0 elsewhere) and a mass matrix M these are a component of the total momentum,
    and the total mass times a coordinate of the centre of mass. *)
Definition momentum (M : 'M[F]_n) (w v : vec) : F := dot w (M *m v).
Definition moment_of_mass (M : 'M[F]_n) (w x : vec) : F := dot w (M *m x).

(** Along w, internal forces cancel: whatever the positions, all forces together amount to the external load G; stiffness
    and damping contribute nothing; no constraint holds w. *)
Definition loaded_by (me : mechanics F n) (w : vec) (G : F) : Prop :=
  [/\ forall x, dot w (force me x) = G,
      forall x, (stiffness me x)^T *m w = 0,
      forall x, (damping me x)^T *m w = 0 &
      (proj me)^T *m w = w].
Definition isolated (me : mechanics F n) (w : vec) : Prop := loaded_by me w 0.

(** A simulation: time steps with their own size, parameters and linear solver; the component goes from one step to the
    next.  The result has the last position and velocity, and the number of iterations of each step. *)
Record time_step := TimeStep { size_of_step : F; parameters : config F; solver : linear_solver [lmodType F of vec] (option 'M[F]_n) }.
Fixpoint simulate (me : mechanics F n) (r_m r_k : F) (steps : seq time_step) (c : component F) (x v : vec) : option (vec * vec * seq nat) :=
  match steps with
  | [::] => Some (x, v, [::])
  | t :: steps =>
      let o := solve (@dot F n) (parameters t) (euler_system me (size_of_step t) r_m r_k) (Some (solver t)) c (Some (begin_step x v)) in
      if o.1 is Some s then
        omap (fun r => (r.1, size (p_squared_residuals o.2) :: r.2)) (simulate me r_m r_k steps o.2 (position s) (velocity s))
      else None
  end.
Definition duration (steps : seq time_step) : F := \sum_(t <- steps) size_of_step t.
End Spec.
