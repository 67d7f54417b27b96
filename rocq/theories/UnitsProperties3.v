(** C108: the Newton-Raphson solver and the units. *)

From mathcomp Require Import all_ssreflect all_algebra.
From Verif Require Import CGModel NewtonModel NewtonSpec NewtonProofs NewtonProperties UnitsSpec3 UnitsProofs4.
Set Implicit Arguments.
Unset Strict Implicit.
Unset Printing Implicit Defensive.
Import GRing.Theory Num.Theory Order.TTheory.
Local Open Scope ring_scope.

(** The same system in other units (lengths times a, forces times k): the same number of iterations, the same answer, and the states, increments
    and residuals in the new units, as long as no displacement reached is negligible. *)
Theorem C108_newton_partial :
  forall (F : realFieldType) (V : lmodType F) (dotV : V -> V -> F) (S S' Mx Mx' : Type) (a k : F) (state : S -> S') (mat : Mx -> Mx') cfg
    (sys : system V S Mx) (sys' : system V S' Mx') ls ls' c s,
    0 < a -> 0 < k -> homogeneous dotV -> same_system a k state mat sys sys' -> same_solver a k mat sys ls ls' ->
    not_negligible dotV a cfg (increments (solve_progress dotV cfg sys ls c s)) ->
    let o := solve dotV cfg sys (Some ls) c s in
    let o' := solve dotV (config_in_units k cfg) sys' (Some ls') (component_in_units k c) (state s) in
    o' = (state o.1, component_in_units k o.2) /\
    increments (solve_progress dotV (config_in_units k cfg) sys' ls' (component_in_units k c) (state s)) =
      map (times a) (increments (solve_progress dotV cfg sys ls c s)).
Proof.
move=> F V dotV S S' Mx Mx' a k state mat cfg sys sys' ls ls' c s Ha Hk Hd Hs Hl N o o'.
have E := solve_units Ha Hk Hd Hs Hl N; split; last by rewrite E.
rewrite /o' /o /solve E /=; congr pair; rewrite /component_in_units /=; congr Component.
by case: Hs => -> _ _; rewrite norm2_times.
Qed.
Print Assumptions C108_newton_partial.

(** The static solver on a body with any fixed degrees of freedom, with a direct linear solver. *)
Theorem C108_static_partial :
  forall (F : realFieldType) (n : nat) (dotV : 'cV[F]_n -> 'cV[F]_n -> F) (a k : F) (me me' : mechanics F n) cfg c (x : 'cV[F]_n),
    0 < a -> 0 < k -> homogeneous (V := [lmodType F of 'cV[F]_n]) dotV -> same_mechanics a k me me' ->
    not_negligible (V := [lmodType F of 'cV[F]_n]) dotV a cfg
      (increments (solve_progress (V := [lmodType F of 'cV[F]_n]) dotV cfg (static_system me) (direct F n) c (Some x))) ->
    let o := solve (V := [lmodType F of 'cV[F]_n]) dotV cfg (static_system me) (Some (direct F n)) c (Some x) in
    let o' := solve (V := [lmodType F of 'cV[F]_n]) dotV (config_in_units k cfg) (static_system me') (Some (direct F n)) (component_in_units k c) (Some (a *: x)) in
    d_converged o'.2 = d_converged o.2 /\ o'.1 = omap (fun y => a *: y) o.1 /\
    p_squared_residuals o'.2 = map (omap (fun r => k * k * r)) (p_squared_residuals o.2).
Proof.
move=> F n dotV a k me me' cfg c x Ha Hk Hd Hm N o o'.
have [E _] := C108_newton_partial Ha Hk Hd (static_same Hm) (direct_same Ha Hk Hm) N.
by rewrite /o' [solve _ _ _ _ _ _]E.
Qed.
Print Assumptions C108_static_partial.

(** The spring of stiffness 1 pulled by 1, states and matrices as numbers, solved with half of the exact increment at each iteration; and the same in other units. *)
Definition spring (a k : rat) : system [lmodType rat of rat^o] rat rat :=
  @System _ [lmodType rat of rat^o] rat rat (fun u => Some (k - k / a * u : rat^o)) (fun _ => k / a) (fun u dx => if dx is Some dx then u + (dx : rat) else u).
Definition halfway : linear_solver [lmodType rat of rat^o] rat :=
  @LinearSolver _ [lmodType rat of rat^o] rat (fun _ _ => true) (fun _ _ => true) (fun _ A r => Solved (omap (fun r : rat^o => (r : rat) / A / 2%:R : rat^o) r)).
Definition spring_config (epsilon : rat) : config rat_realFieldType := @Config rat_realFieldType epsilon 5 (1 / 10%:R) (-1) (1 / 10%:R) ALWAYS.

(** The threshold on displacements is a constant: in a unit of length that is large enough, the same spring is said to diverge. *)
Theorem C108_newton_refuted :
  exists (cfg : config rat_realFieldType) (a k : rat) (sys sys' : system [lmodType rat of rat^o] rat rat) (ls ls' : linear_solver [lmodType rat of rat^o] rat) c,
    [/\ 0 < EPSILON cfg, 0 < a, 0 < k, homogeneous rdot & same_system a k (fun u => a * u) (fun A => k / a * A) sys sys'] /\
    [/\ same_solver a k (fun A => k / a * A) sys ls ls', d_converged (solve rdot cfg sys (Some ls) c 0).2 &
        ~~ d_converged (solve rdot (config_in_units k cfg) sys' (Some ls') (component_in_units k c) 0).2].
Proof.
exists (spring_config (1 / 16%:R)), (1 / 8%:R), 1, (spring 1 1), (spring (1 / 8%:R) 1), halfway, halfway, run_component.
have H3 : (1 / 8%:R : rat) != 0 by vm_compute.
split; split.
- by vm_compute.
- by vm_compute.
- by vm_compute.
- by move=> c u; rewrite /rdot mulrACA.
- move: (1 / 8%:R : rat) H3 => a H3; split=> [u|u|u [dx|]]; rewrite /=.
  + congr Some; rewrite /GRing.scale /=.
    by rewrite divr1 !mul1r mulrA mulVf // mul1r.
  + by rewrite divr1 ?mulr1.
  + by rewrite mulrDr.
  + by [].
- move: (1 / 8%:R : rat) H3 => a H3; split=> [n u|n u|n u]; [by [] | by [] |].
  case: (rhs _ _) => [r|]; last by [].
  move: (matrix _ _) => A; rewrite /=; congr (Solved (Some _)).
  by rewrite /GRing.scale /= div1r mul1r invfM invrK mulrCA !mulrA.
- by vm_compute.
- by vm_compute.
Qed.
Print Assumptions C108_newton_refuted.

(** With lengths and forces ten times larger, the spring meets the hypotheses of the theorem. *)
Example C108_spring :
  [/\ homogeneous rdot, same_system 10%:R 10%:R ( *%R 10%:R) id (spring 1 1) (spring 10%:R 10%:R), same_solver 10%:R 10%:R id (spring 1 1) halfway halfway &
      not_negligible rdot 10%:R (spring_config (1 / 16%:R)) (increments (solve_progress rdot (spring_config (1 / 16%:R)) (spring 1 1) halfway run_component 0))].
Proof.
split.
- by move=> c u; rewrite /rdot mulrACA.
- move: (10%:R : rat) (isT : (10%:R : rat) != 0) => a H; split=> [u|u|u [dx|]]; rewrite /=.
  + by congr Some; rewrite /GRing.scale /= divr1 divff // !mul1r mulrBr mulr1.
  + by rewrite divr1 divff.
  + by rewrite mulrDr.
  + by [].
- move: (10%:R : rat) => a; split=> [n u|n u|n u]; [by [] | by [] |].
  case: (rhs _ _) => [r|]; last by [].
  by move: (matrix _ _) => A; rewrite /=; congr (Solved (Some _)); rewrite /GRing.scale /= !mulrA.
- move=> j U; set incs := increments _ => Hj E.
  have : all (fun j => if sum_of (take j incs) is Some U then (1 / 16%:R <= rdot U U) && (1 / 16%:R <= 10%:R * 10%:R * rdot U U) else true) (iota 1 (size incs)) by vm_compute.
  by move/allP/(_ j); rewrite mem_iota add1n ltnS Hj E => /(_ isT) /andP.
Qed.
Example C108_spring_increments : size (increments (solve_progress rdot (spring_config (1 / 16%:R)) (spring 1 1) halfway run_component 0)) = 4%N.
Proof. by vm_compute. Qed.

(** Two unit springs pulled by 1, the second one fixed; one iteration. *)
Definition two_springs (a k : rat) : mechanics rat_realFieldType 2 :=
  @Mechanics rat_realFieldType 2 (fun x => k *: const_mx 1 - (k / a) *: x) (fun _ => - (k / a)%:M) (fun _ => 0) 0 (delta_mx 0 0).
Definition dot2 (u v : 'cV[rat]_2) : rat := (u^T *m v) 0 0.
Definition one_iteration : config rat_realFieldType := @Config rat_realFieldType (1 / 16%:R) 1 (1 / 10%:R) (-1) (-1) ALWAYS.
Example C108_two_springs (a k : rat) : 0 < a -> 0 < k ->
  homogeneous (V := [lmodType rat of 'cV[rat]_2]) dot2 /\ same_mechanics a k (two_springs 1 1) (two_springs a k).
Proof.
move=> Ha Hk; have Ha0 := lt0r_neq0 Ha; split=> [c u|].
  by rewrite /dot2 !mxE mulr_sumr; apply: eq_bigr => i _; rewrite !mxE mulrACA.
split=> //= [|x|x].
- by rewrite mul_delta_mx.
- by rewrite scalerA divfK // scalerBr scale1r divr1 scale1r.
- by rewrite divr1 scalerN -scalemx1 scalemx1.
Qed.
Lemma two_springs_increments : increments (solve_progress (V := [lmodType rat of 'cV[rat]_2]) dot2 one_iteration (static_system (two_springs 1 1)) (direct _ 2) run_component (Some 0)) =
  [:: Some (delta_mx 0 0 : 'cV[rat]_2)].
Proof.
rewrite /solve_progress /start /= /iteration /=.
have -> : constrain (delta_mx 0 0) (mbk_matrix (two_springs 1 1) 0 0 0 (-1)) = 1%:M :> 'M[rat]_2.
  rewrite /constrain /mbk_matrix /= !scale0r !add0r scaleN1r opprK divr1 mulmx1 mul_delta_mx addrC subrK //.
set r := delta_mx 0 0 *m _.
have -> : r = delta_mx 0 0.
  apply/matrixP => i j; rewrite /r !mxE !big_ord_recl big_ord0 !mxE.
  by rewrite !ord1 mulr0 subr0 mul1r /=; case: i => [[|[|i]] Hi] //; vm_compute.
by rewrite unitmx1 invmx1 mul1mx; case: ifP.
Qed.
Example C108_two_springs_displacement :
  not_negligible (V := [lmodType rat of 'cV[rat]_2]) dot2 2%:R one_iteration
    (increments (solve_progress (V := [lmodType rat of 'cV[rat]_2]) dot2 one_iteration (static_system (two_springs 1 1)) (direct _ 2) run_component (Some 0))).
Proof.
rewrite two_springs_increments => j U; case: j => [|[|j]] //= _ [<-].
have -> : dot2 (0 + delta_mx 0 0) (0 + delta_mx 0 0) = 1; last by vm_compute.
by rewrite add0r /dot2 trmx_delta mul_delta_mx mxE.
Qed.
