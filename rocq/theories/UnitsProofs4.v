(** Proofs for C108: the Newton-Raphson solver in other units. *)

From mathcomp Require Import all_ssreflect all_algebra.
From Verif Require Import CGModel NewtonModel NewtonSpec NewtonProofs UnitsSpec3.
Set Implicit Arguments.
Unset Strict Implicit.
Unset Printing Implicit Defensive.
Import GRing.Theory Num.Theory Order.TTheory.
Local Open Scope ring_scope.

Section Units.
Variable F : realFieldType.
Variable V : lmodType F.
Variable dotV : V -> V -> F.
Variables (S S' Mx Mx' : Type).
Variables (a k : F) (state : S -> S') (mat : Mx -> Mx') (cfg : config F).
Variables (sys : system V S Mx) (sys' : system V S' Mx') (ls : linear_solver V Mx) (ls' : linear_solver V Mx').
Hypotheses (Ha : 0 < a) (Hk : 0 < k) (Hd : homogeneous dotV).
Hypotheses (Hs : same_system a k state mat sys sys') (Hl : same_solver a k mat sys ls ls').
Let cfg' := config_in_units k cfg.

Definition progress_in_units (p : progress V S) : progress V S' :=
  Progress (state (st p)) (times k (rhs_vector p)) (oscale (k * k) (R_squared_norm p)) (times a (total p)) (map (times a) (increments p))
    (map (oscale (k * k)) (residuals p)) (already_analyzed p) (analyses p) (assemblies p) (stopped p).

Lemma norm2_times c (v : option V) : norm2 dotV (times c v) = oscale (c * c) (norm2 dotV v).
Proof. by case: v => [v|] //=; rewrite Hd. Qed.
Lemma oadd_times c (u v : option V) : oadd (times c u) (times c v) = times c (oadd u v).
Proof. by case: u => [u|] //; case: v => [v|] //=; rewrite scalerDr. Qed.
Lemma isnan_oscale c (x : option F) : isnan (oscale c x) = isnan x.
Proof. by case: x. Qed.
Lemma olt_oscale c x (y : option F) : 0 < c -> olt (oscale c x) (oscale c y) = olt x y.
Proof. by move=> Hc; case: x => [x|] //; case: y => [y|] //=; rewrite ltr_pmul2l. Qed.
Lemma ole_oscale c x (y : option F) : 0 < c -> ole (oscale c x) (oscale c y) = ole x y.
Proof. by move=> Hc; case: x => [x|] //; case: y => [y|] //=; rewrite ler_pmul2l. Qed.
Lemma oscaleC c d (x : option F) : oscale c (oscale d x) = oscale d (oscale c x).
Proof. by case: x => [x|] //=; rewrite mulrCA. Qed.
Lemma absolute_sq (t : F) : Some (k * t * (k * t)) = oscale (k * k) (Some (t * t)).
Proof. by rewrite /=; congr Some; rewrite mulrACA. Qed.

Lemma check_units R dx2 (U : option V) R1 :
  (forall u, U = Some u -> EPSILON cfg <= dotV u u /\ EPSILON cfg <= a * a * dotV u u) ->
  check cfg' (oscale (k * k) R) (oscale (a * a) dx2) (norm2 dotV (times a U)) (oscale (k * k) R1) = check cfg R dx2 (norm2 dotV U) R1.
Proof.
move=> HU; have Ha2 : 0 < a * a by rewrite mulr_gt0. have Hk2 : 0 < k * k by rewrite mulr_gt0.
have T1 : olt (norm2 dotV (times a U)) (Some (EPSILON cfg)) = false.
  by rewrite norm2_times; case: U HU => [u|] //= /(_ u erefl) [_ H]; rewrite ltNge H.
have T2 : olt (norm2 dotV U) (Some (EPSILON cfg)) = false.
  by case: U HU {T1} => [u|] //= /(_ u erefl) [H _]; rewrite ltNge H.
rewrite /check /cfg' /config_in_units [EPSILON _]/= T1 T2 !isnan_oscale !orbF /= norm2_times.
rewrite absolute_sq (oscaleC _ (a * a)) (oscaleC _ (k * k)) !olt_oscale // (pmulr_rgt0 _ Hk) //.
Qed.

Lemma iteration_units p : rhs_vector p = rhs sys (st p) ->
  (forall u, total (iteration dotV cfg sys ls p) = Some u -> increments (iteration dotV cfg sys ls p) <> increments p -> EPSILON cfg <= dotV u u /\ EPSILON cfg <= a * a * dotV u u) ->
  iteration dotV cfg' sys' ls' (progress_in_units p) = progress_in_units (iteration dotV cfg sys ls p).
Proof.
case: Hs => Hrhs Hmat Hprop; case: Hl => Han Hfa Hso Er.
rewrite /iteration /= !size_map Hmat Han Hfa Er Hso -Er.
case: ifP => _ //; case: ifP => _ //.
case: (lsolve ls _ _ _) => [|dx] //= HU.
rewrite /progress_in_units /= !map_rcons Hprop Hrhs oadd_times.
have E1 : (if (1 < newton_iterations cfg)%N then norm2 dotV (times k (rhs sys (propagate sys (st p) dx))) else oscale (k * k) (R_squared_norm p)) =
  oscale (k * k) (if (1 < newton_iterations cfg)%N then norm2 dotV (rhs sys (propagate sys (st p) dx)) else R_squared_norm p).
  by case: (1 < _)%N; rewrite ?norm2_times.
have E2 : (if (1 < newton_iterations cfg)%N then times k (rhs sys (propagate sys (st p) dx)) else times k (rhs_vector p)) =
  times k (if (1 < newton_iterations cfg)%N then rhs sys (propagate sys (st p) dx) else rhs_vector p) by case: ifP.
have E3 : (if (1 < newton_iterations cfg)%N then norm2 dotV (if (1 < newton_iterations cfg)%N then times k (rhs sys (propagate sys (st p) dx)) else times k (rhs_vector p)) else oscale (k * k) (R_squared_norm p)) =
  oscale (k * k) (if (1 < newton_iterations cfg)%N then norm2 dotV (if (1 < newton_iterations cfg)%N then rhs sys (propagate sys (st p) dx) else rhs_vector p) else R_squared_norm p).
  by case: (1 < _)%N; rewrite ?norm2_times.
rewrite E3 E2; set R := (if _ then norm2 dotV _ else _).
have E4 : head None (rcons [seq oscale (k * k) i | i <- residuals p] (oscale (k * k) R)) = oscale (k * k) (head None (rcons (residuals p) R)) by case: (residuals p).
rewrite E4 norm2_times check_units // => u Eu; apply: HU => //.
by move/(congr1 size); rewrite size_rcons => /eqP; rewrite eqn_leq ltnn.
Qed.

Lemma iteration_increments p : exists t, increments (iteration dotV cfg sys ls p) = increments p ++ t.
Proof.
rewrite /iteration; case: ifP => _ /=; first by exists [::]; rewrite cats0.
case: ifP => _ /=; first by exists [::]; rewrite cats0.
case: (lsolve ls _ _ _) => [|dx] /=; first by exists [::]; rewrite cats0.
by exists [:: dx]; rewrite cats1.
Qed.
Lemma loop_increments fuel : forall p, exists t, increments (loop dotV cfg sys ls fuel p) = increments p ++ t.
Proof.
elim: fuel => [|fuel IH] p /=; first by exists [::]; rewrite cats0.
have [t Et] := iteration_increments p; case: ifP => _; last by exists t.
by have [t' Et'] := IH (iteration dotV cfg sys ls p); exists (t ++ t'); rewrite Et' Et catA.
Qed.
Lemma iteration_total p : total p = sum_of (increments p) -> total (iteration dotV cfg sys ls p) = sum_of (increments (iteration dotV cfg sys ls p)).
Proof.
move=> H; rewrite /iteration; case: ifP => _ //=; case: ifP => _ //=.
by case: (lsolve ls _ _ _) => [|dx] //=; rewrite /sum_of -cats1 foldl_cat /= -/(sum_of _) H.
Qed.
Lemma iteration_rhs p : (1 < newton_iterations cfg)%N -> rhs_vector p = rhs sys (st p) ->
  rhs_vector (iteration dotV cfg sys ls p) = rhs sys (st (iteration dotV cfg sys ls p)).
Proof.
move=> H1 Er; rewrite /iteration; case: ifP => _ //=; case: ifP => _ //=.
by case: (lsolve ls _ _ _) => [|dx] //=; rewrite H1.
Qed.
Lemma loop_units fuel : forall p, (fuel <= newton_iterations cfg)%N -> ((0 < fuel)%N -> rhs_vector p = rhs sys (st p)) -> total p = sum_of (increments p) -> not_negligible dotV a cfg (increments (loop dotV cfg sys ls fuel p)) ->
  loop dotV cfg' sys' ls' fuel (progress_in_units p) = progress_in_units (loop dotV cfg sys ls fuel p).
Proof.
elim: fuel => [|fuel IH] p Hf Er T //= N; move/(_ isT) in Er.
have Hi : iteration dotV cfg' sys' ls' (progress_in_units p) = progress_in_units (iteration dotV cfg sys ls p).
  apply: iteration_units => // u Eu NE; set q := iteration dotV cfg sys ls p in N Eu NE *.
  have [t Et] : exists t, increments (if is_running (stopped q) then loop dotV cfg sys ls fuel q else q) = increments q ++ t.
    by case: ifP => _; [apply: loop_increments | exists [::]; rewrite cats0].
  have [t' Et'] := iteration_increments p; rewrite -/q in Et'.
  apply: (N (size (increments q))).
  - rewrite Et size_cat leq_addr andbT lt0n; apply/negP => /nilP Z; apply: NE; rewrite Z.
    by move: Et'; rewrite Z; case: (increments p).
  by rewrite Et take_size_cat // -iteration_total.
rewrite Hi /=; case: ifP N => // _ N; apply: IH => //; [exact: ltnW | | exact: iteration_total].
move=> F0; apply: iteration_rhs => //; exact: leq_trans Hf.
Qed.
Lemma start_units c s : start dotV cfg' sys' (component_in_units k c) (state s) = progress_in_units (start dotV cfg sys c s).
Proof.
case: Hs => Hrhs _ _; have Hk2 : 0 < k * k by rewrite mulr_gt0.
rewrite /start /progress_in_units /= Hrhs norm2_times absolute_sq ole_oscale // (pmulr_rgt0 _ Hk) scaler0 //.
Qed.
Lemma solve_units c s : not_negligible dotV a cfg (increments (solve_progress dotV cfg sys ls c s)) ->
  solve_progress dotV cfg' sys' ls' (component_in_units k c) (state s) = progress_in_units (solve_progress dotV cfg sys ls c s).
Proof.
rewrite /solve_progress start_units /=; case: ifP => _ // N.
exact: (@loop_units _ (start dotV cfg sys c s)).
Qed.
End Units.

Section Static.
Variables (F : realFieldType) (n : nat) (a k : F) (me me' : mechanics F n).
Hypotheses (Ha : 0 < a) (Hk : 0 < k) (Hm : same_mechanics a k me me').
Let P := proj me.
Let c := k / a.
Definition static_state (x : option 'cV[F]_n) : option 'cV[F]_n := omap (fun x => a *: x) x.
Definition static_matrix (A : option 'M[F]_n) : option 'M[F]_n := omap (fun A => constrain P (c *: A)) A.
Let D := c *: P + (1%:M - P).
Let D1 := c^-1 *: P + (1%:M - P).

Lemma c_neq0 : c != 0.
Proof. by rewrite /c mulf_neq0 ?invr_eq0 ?lt0r_neq0. Qed.
Lemma PP : P *m P = P. Proof. by case: Hm. Qed.
Lemma PQ : P *m (1%:M - P) = 0. Proof. by rewrite mulmxBr mulmx1 PP subrr. Qed.
Lemma QP : (1%:M - P) *m P = 0. Proof. by rewrite mulmxBl mul1mx PP subrr. Qed.
Lemma QQ : (1%:M - P) *m (1%:M - P) = 1%:M - P. Proof. by rewrite mulmxBr mulmx1 QP subr0. Qed.
Lemma D1D : D1 *m D = 1%:M.
Proof.
have S : P + (1%:M - P) = 1%:M by rewrite addrC subrK.
rewrite /D1 /D; move: PQ QP QQ S; move: (1%:M - P) => Q pq qp qq S.
by rewrite mulmxDl !mulmxDr -!scalemxAl -!scalemxAr PP pq qp qq !scaler0 addr0 add0r scalerA mulVf ?c_neq0 // scale1r.
Qed.
Lemma constrain_c A : constrain P (c *: A) = c *: (P *m A *m P) + (1%:M - P).
Proof. by rewrite /constrain -scalemxAr -scalemxAl. Qed.
Lemma P_constrain_P A : P *m constrain P A *m P = P *m A *m P.
Proof. by rewrite /constrain mulmxDr PQ addr0 !mulmxA PP -mulmxA PP. Qed.
Lemma constrain_D A : constrain P (c *: A) = D *m constrain P A.
Proof.
rewrite constrain_c /D /constrain; move: PQ QP QQ; move: (1%:M - P) => Q pq qp qq.
by rewrite mulmxDl !mulmxDr -!scalemxAl pq scaler0 addr0 qq !mulmxA PP qp !mul0mx add0r.
Qed.
Lemma constrain_twice A : constrain P (c *: constrain P A) = constrain P (c *: A).
Proof. by rewrite !constrain_c P_constrain_P. Qed.

Lemma static_same : same_system (V := [lmodType F of 'cV[F]_n]) a k static_state static_matrix (static_system me) (static_system me').
Proof.
case: (Hm) => _ Ep Ef Es; split=> [[x|]|[x|]|[x|] [dx|]] //=.
- by rewrite Ep Ef -scalemxAr.
- by rewrite Ep constrain_twice /mbk_matrix !scale0r !add0r Es; congr (Some (constrain _ _)); rewrite !scalerA mulrC.
- by rewrite scalerDr.
Qed.
Lemma direct_same : same_solver (V := [lmodType F of 'cV[F]_n]) a k static_matrix (static_system me) (direct F n) (direct F n).
Proof.
have UD : D \in unitmx by case: (mulmx1_unit D1D).
split=> [m [x|]|m [x|]|m [x|]] //=; rewrite constrain_twice constrain_D unitmx_mul UD //=.
case: ifP => //= UM; congr (Solved (Some _)).
rewrite -/P; set M := constrain P _ in UM *; set r := P *m _.
have E : D1 *m r = c^-1 *: r by rewrite /r /D1 mulmxDl -scalemxAl !mulmxA PP QP mul0mx addr0.
have UX : D *m M \in unitmx by rewrite unitmx_mul UD UM.
have EX : invmx M *m D1 *m (D *m M) = 1%:M by rewrite -mulmxA [D1 *m (D *m M)]mulmxA D1D mul1mx mulVmx.
have EI : invmx (D *m M) = invmx M *m D1 by rewrite -[RHS]mulmx1 -(mulmxV UX) mulmxA EX mul1mx.
have Ec : k * c^-1 = a by rewrite /c invf_div mulrCA mulfV ?mulr1 ?lt0r_neq0.
by rewrite EI -mulmxA -scalemxAr E scalerA Ec -scalemxAr.
Qed.
End Static.
