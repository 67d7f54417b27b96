(** Properties of the backward Euler solver. *)

From mathcomp Require Import all_ssreflect all_algebra.
From Coq Require Import Ring.
From Verif Require Import FieldRing CGModel CGSpec CGProofs NewtonModel NewtonSpec NewtonProofs NewtonProperties OdeProperties.
Set Implicit Arguments.
Unset Strict Implicit.
Unset Printing Implicit Defensive.
Import GRing.Theory Num.Theory Order.TTheory.
Local Open Scope ring_scope.

(** The state with acceleration a in the step of size h that began at (x, v). *)
Definition at_acceleration (F : realFieldType) n (h : F) (x v a : 'cV[F]_n) : dynamic_state F n :=
  Dyn x v a (v + h *: a) (x + h *: (v + h *: a)).

Section Euler.
Variable F : realFieldType.
Variable n : nat.
Variable me : mechanics F n.
Variables h r_m r_k : F.
Local Notation vec := ('cV[F]_n).
Local Notation sys := (euler_system me h r_m r_k).

Lemma euler_state x v incs : incs != [::] ->
  state_after sys (Some (begin_step x v)) incs = omap (at_acceleration h x v) (sum_of incs).
Proof.
rewrite /state_after /sum_of; elim/last_ind: incs => [|l d IH] // _.
rewrite -!cats1 !foldl_cat /=.
case: l IH => [|e l] IH.
  by rewrite /=; case: d => [d|] //=; rewrite /euler_propagate /= /at_acceleration.
rewrite IH //; case: (foldl _ (Some 0) _) => [u|] //=; case: d => [d|] //=.
Qed.
End Euler.

(** C51.  After at least one iteration the state satisfies v = v_n + h a and x = x_n + h v, with a the sum of the
    increments, for any forces and any answers of the linear solver. *)
Theorem C51_kinematics :
  forall (F : realFieldType) n (me : mechanics F n) h r_m r_k cfg ls c x v,
    let o := solve (@dot F n) cfg (euler_system me h r_m r_k) (Some ls) c (Some (begin_step x v)) in
    let p := solve_progress (@dot F n) cfg (euler_system me h r_m r_k) ls c (Some (begin_step x v)) in
    if increments p is [::] then o.1 = Some (begin_step x v)
    else match sum_of (increments p) with
         | None => o.1 = None
         | Some a => exists2 s, o.1 = Some s &
             [/\ acceleration s = a, velocity s = v + h *: a & position s = x + h *: velocity s]
         end.
Proof.
move=> F n me h r_m r_k cfg ls c x v o p.
have [_ H1 H2 _] := C47_iterations (@dot F n) cfg (euler_system me h r_m r_k) ls c (Some (begin_step x v)).
rewrite -/o -/p in H1 H2; rewrite H2 -H1 take_size.
case Ei : (increments p) => [|d l] //; rewrite euler_state //; case: (sum_of _) => [a|] //=.
by exists (at_acceleration h x v a).
Qed.
Print Assumptions C51_kinematics.

Section Derivative.
Variable F : realFieldType.
Add Ring scalar_ring : (@field_ring_theory F).
Variable n : nat.
Variable me : mechanics F n.
Variables h r_m r_k : F.
Local Notation vec := ('cV[F]_n).

Lemma euler_derivative g K B (x v a da : vec) : affine_mechanics me g K B ->
  euler_rhs me h r_m r_k (at_acceleration h x v (a + da)) =
  euler_rhs me h r_m r_k (at_acceleration h x v a) -
    proj me *m (((1 + h * r_m) *: mass me + h *: B - (h * (h + r_k)) *: K) *m da).
Proof.
move=> [Hf [HK HB]].
rewrite /euler_rhs /= -mulmxBr; congr (_ *m _).
rewrite /addMBKdx !HK !HB !Hf !mulmxDl !mulNmx -!scalemxAl.
do !rewrite mulmxDr -?scalemxAr.
move: (K *m x) (K *m v) (K *m a) (K *m da) (B *m v) (B *m a) (B *m da) (mass me *m v) (mass me *m a) (mass me *m da).
move=> Kx Kv Ka Kd Bv Ba Bd Mv Ma Md.
apply/matrixP => i j; rewrite !mxE; fring F.
Qed.

Lemma euler_first g K B (x v : vec) : affine_mechanics me g K B ->
  euler_rhs me h r_m r_k (at_acceleration h x v 0) =
  euler_rhs me h r_m r_k (begin_step x v) + h *: (proj me *m (K *m v)).
Proof.
move=> [Hf [HK HB]].
rewrite /euler_rhs /= scalemxAr -mulmxDr; congr (_ *m _).
rewrite /addMBKdx !HK !HB !Hf !scaler0 !addr0 mulmxDr -scalemxAr.
move: (K *m x) (K *m v) (B *m v) (mass me *m v) (mass me *m 0) (B *m 0) (K *m 0) => *.
apply/matrixP => i j; rewrite !mxE; fring F.
Qed.

Lemma euler_equation (x v a : vec) :
  let s := at_acceleration h x v a in
  euler_rhs me h r_m r_k s =
  proj me *m (force me (position s) - rayleigh me r_m r_k (position s) *m velocity s - mass me *m a).
Proof.
move=> s; rewrite /euler_rhs; congr (_ *m _).
rewrite /addMBKdx /rayleigh /= !mulmxDl mulNmx -!scalemxAl !mulmxDr -!scalemxAr.
set y := x + _; move: (force me y) (damping me y) (stiffness me y) => f B K.
move: (K *m v) (K *m a) (B *m v) (B *m a) (mass me *m v) (mass me *m a) => *.
apply/matrixP => i j; rewrite !mxE; fring F.
Qed.

Variables (g : vec) (K B : 'M[F]_n).
Hypothesis Aff : affine_mechanics me g K B.
Hypothesis PP : projection me.
Variable ls : linear_solver [lmodType F of vec] (option 'M[F]_n).
Hypothesis Ex : exact ls.
Variable cfg : config F.
Variable c : component F.
Variables x v : vec.
Local Notation sys := (euler_system me h r_m r_k).
Let p := solve_progress (@dot F n) cfg sys ls c (Some (begin_step x v)).

Lemma euler_sequence k : (k < size (increments p))%N ->
  exists a, [/\ state_after sys (Some (begin_step x v)) (take k.+1 (increments p)) = Some (at_acceleration h x v a),
     sum_of (take k.+1 (increments p)) = Some a, proj me *m a = a &
     euler_rhs me h r_m r_k (at_acceleration h x v a) = if k is 0 then h *: (proj me *m (K *m v)) else 0].
Proof.
have [Hf [HK HB]] := Aff.
have [_ H1 _ H2] := C47_iterations (@dot F n) cfg sys ls c (Some (begin_step x v)).
rewrite -/p in H1 H2.
have N1 j : (j < size (increments p))%N -> state_after sys (Some (begin_step x v)) (take j.+1 (increments p)) =
    propagate sys (state_after sys (Some (begin_step x v)) (take j (increments p))) (nth None (increments p) j).
  by move=> Hj; rewrite (take_nth None) // /state_after -cats1 foldl_cat.
have N2 j : (j < size (increments p))%N -> sum_of (take j.+1 (increments p)) =
    oadd (V := [lmodType F of vec]) (sum_of (take j (increments p))) (nth None (increments p) j).
  by move=> Hj; rewrite (take_nth None) // /sum_of -cats1 foldl_cat.
elim: k => [|k IH] Hk.
  have K0 : (0 < size (p_squared_residuals (solve (@dot F n) cfg sys (Some ls) c (Some (begin_step x v))).2))%N by rewrite -H1.
  have [_] := H2 0%N K0; rewrite take0 /= => /Ex [y [E Ey]].
  have [P1 P2] := constrained PP Ey.
  exists y; split=> //.
  - by rewrite N1 // take0 E /= /euler_propagate /= /at_acceleration add0r.
  - by rewrite N2 // take0 E /= add0r.
  rewrite -[y in LHS]add0r (euler_derivative x v 0 y Aff) (euler_first x v Aff).
  move: P2; rewrite /mbk_matrix HK HB mulNr scaleNr -mulmxA => P2.
  by rewrite P2 addrAC subrr add0r.
have [a [S1 S2 S3 S4]] := IH (ltnW Hk).
have K0 : (k.+1 < size (p_squared_residuals (solve (@dot F n) cfg sys (Some ls) c (Some (begin_step x v))).2))%N by rewrite -H1.
have [_] := H2 _ K0; rewrite S1 /= => /Ex [y [E Ey]].
have [P1 P2] := constrained PP Ey.
exists (a + y); split.
- by rewrite N1 // S1 E.
- by rewrite N2 // S2 E.
- by rewrite mulmxDr S3 P1.
rewrite (euler_derivative x v a y Aff).
move: P2; rewrite /mbk_matrix HK HB mulNr scaleNr -mulmxA => P2.
by rewrite P2 subrr.
Qed.
End Derivative.

(** The system matrix is minus the derivative of the right-hand side with respect to the acceleration (affine forces, so
    the difference is exactly linear); the constrained matrix that is assembled is made from it. *)
Theorem C51_matrix_is_derivative :
  forall (F : realFieldType) n (me : mechanics F n) g K B h r_m r_k x v a da,
    affine_mechanics me g K B ->
    let s a := at_acceleration h x v a in
    let A := (1 + h * r_m) *: mass me + h *: B - (h * (h + r_k)) *: K in
    euler_rhs me h r_m r_k (s (a + da)) = euler_rhs me h r_m r_k (s a) - proj me *m (A *m da) /\
    euler_matrix me h r_m r_k (s a) = proj me *m A *m proj me + (1%:M - proj me).
Proof.
move=> F n me g K B h r_m r_k x v a da Aff s A; split; first exact: (euler_derivative h r_m r_k x v a da Aff).
by have [Hf [HK HB]] := Aff; rewrite /euler_matrix /mbk_matrix HK HB /A /constrain mulNr scaleNr.
Qed.
Print Assumptions C51_matrix_is_derivative.

(** The right-hand side at any state that satisfies the kinematics is the residual of the equation of motion
    force(x) - (r_m M + B - r_k K) v = M a, whatever the forces. *)
Theorem C51_equation_of_motion :
  forall (F : realFieldType) n (me : mechanics F n) h r_m r_k (s : dynamic_state F n),
    velocity s = previous_v s + h *: acceleration s ->
    position s = previous_x s + h *: velocity s ->
    euler_rhs me h r_m r_k s =
    proj me *m (force me (position s) - rayleigh me r_m r_k (position s) *m velocity s - mass me *m acceleration s).
Proof.
move=> F n me h r_m r_k [x v a v' x'] /= -> ->; exact: euler_equation.
Qed.
Print Assumptions C51_equation_of_motion.

(** Affine forces and an exact linear solver: from the second iteration on the state satisfies the equation of motion
    exactly on the degrees of freedom that are not fixed, and the fixed ones have no acceleration. *)
Theorem C51_two_iterations :
  forall (F : realFieldType) n (me : mechanics F n) g K B h r_m r_k cfg ls c x v,
    affine_mechanics me g K B -> projection me -> exact ls ->
    let o := solve (@dot F n) cfg (euler_system me h r_m r_k) (Some ls) c (Some (begin_step x v)) in
    (1 < size (p_squared_residuals o.2))%N ->
    exists s, [/\ o.1 = Some s, proj me *m acceleration s = acceleration s,
      velocity s = v + h *: acceleration s, position s = x + h *: velocity s &
      proj me *m (force me (position s) - rayleigh me r_m r_k (position s) *m velocity s - mass me *m acceleration s) = 0].
Proof.
move=> F n me g K B h r_m r_k cfg ls c x v Aff PP Ex o Hs.
have [_ H1 H2 _] := C47_iterations (@dot F n) cfg (euler_system me h r_m r_k) ls c (Some (begin_step x v)).
rewrite -/o in H1 H2.
have Hk : (1 < size (increments (solve_progress (@dot F n) cfg (euler_system me h r_m r_k) ls c (Some (begin_step x v)))))%N by rewrite H1.
have := euler_sequence (h := h) (r_m := r_m) (r_k := r_k) Aff PP Ex (cfg := cfg) (c := c) (x := x) (v := v)
  (k := (size (p_squared_residuals o.2)).-1).
rewrite H1 prednK; last by apply: ltn_trans Hs.
case=> // a [S1 S2 S3 S4]; exists (at_acceleration h x v a); rewrite H2 S1; split=> //=.
by rewrite -euler_equation S4; case: (size _) Hs => [|[|]].
Qed.
Print Assumptions C51_two_iterations.

(** With a single iteration (the default) the equation of motion is missed by h K v_n, the force of the stiffness along
    the motion of the step: the first right-hand side is taken at x_n and not at x_n + h v_n. *)
Theorem C51_single_iteration_refuted :
  forall (F : realFieldType) n (me : mechanics F n) g K B h r_m r_k cfg ls c x v,
    affine_mechanics me g K B -> projection me -> exact ls ->
    let o := solve (@dot F n) cfg (euler_system me h r_m r_k) (Some ls) c (Some (begin_step x v)) in
    size (p_squared_residuals o.2) = 1%N ->
    exists2 s, o.1 = Some s &
      proj me *m (force me (position s) - rayleigh me r_m r_k (position s) *m velocity s - mass me *m acceleration s)
      = h *: (proj me *m (K *m v)).
Proof.
move=> F n me g K B h r_m r_k cfg ls c x v Aff PP Ex o Hs.
have [_ H1 H2 _] := C47_iterations (@dot F n) cfg (euler_system me h r_m r_k) ls c (Some (begin_step x v)).
rewrite -/o in H1 H2.
have := euler_sequence (h := h) (r_m := r_m) (r_k := r_k) Aff PP Ex (cfg := cfg) (c := c) (x := x) (v := v) (k := 0).
rewrite H1 Hs; case=> // a [S1 S2 S3 S4]; exists (at_acceleration h x v a); first by rewrite H2 Hs S1.
by rewrite -euler_equation S4.
Qed.
Print Assumptions C51_single_iteration_refuted.

(** C72.  Energy of a linear system with stiffness matrix Kp (force = - Kp x). *)
Definition twice_energy (F : realFieldType) n (M Kp : 'M[F]_n) (x v : 'cV[F]_n) : F := dot v (M *m v) + dot x (Kp *m x).
Definition semidefinite (F : realFieldType) n (A : 'M[F]_n) : Prop := forall y, 0 <= dot y (A *m y).

Section Energy.
Variable F : realFieldType.
Add Ring scalar_ring2 : (@field_ring_theory F).
Variable n : nat.
Local Notation vec := ('cV[F]_n).

Lemma energy_balance (M Kp : 'M[F]_n) (x v a : vec) h : M^T = M -> Kp^T = Kp ->
  let v' := v + h *: a in let x' := x + h *: v' in
  twice_energy M Kp x' v' - twice_energy M Kp x v =
  (1 + 1) * h * (dot v' (M *m a) + dot v' (Kp *m x')) - h * h * (dot a (M *m a) + dot v' (Kp *m v')).
Proof.
move=> SM SK v' x'; rewrite /twice_energy.
have -> : v = v' - h *: a by rewrite /v' addrK.
have -> : x = x' - h *: v' by rewrite /x' addrK.
clearbody x'; clearbody v'.
rewrite !mulmxBr -!scalemxAr !dotBl !dotBr !dotZl !dotZr.
have -> : dot a (M *m v') = dot v' (M *m a) by rewrite (dot_sym _ _ SM) dotC.
have -> : dot x' (Kp *m v') = dot v' (Kp *m x') by rewrite (dot_sym _ _ SK) dotC.
move: (dot v' (M *m v') : F) (dot x' (Kp *m x') : F) (dot v' (M *m a) : F) (dot v' (Kp *m x') : F) (dot a (M *m a) : F)
  (dot v' (Kp *m v') : F) => *.
fring F.
Qed.
End Energy.

(** A converged step never increases the energy, whatever the size of the step. *)
Theorem C72_energy_partial :
  forall (F : realFieldType) n (me : mechanics F n) Kp B h r_m r_k cfg ls c x v,
    affine_mechanics me 0 (- Kp) B -> projection me -> (proj me)^T = proj me -> exact ls ->
    (mass me)^T = mass me -> Kp^T = Kp -> semidefinite (mass me) -> semidefinite Kp -> semidefinite B ->
    0 <= h -> 0 <= r_m -> 0 <= r_k -> proj me *m v = v ->
    let o := solve (@dot F n) cfg (euler_system me h r_m r_k) (Some ls) c (Some (begin_step x v)) in
    (1 < size (p_squared_residuals o.2))%N ->
    exists s, [/\ o.1 = Some s, proj me *m velocity s = velocity s &
      twice_energy (mass me) Kp (position s) (velocity s) <= twice_energy (mass me) Kp x v].
Proof.
move=> F n me Kp B h r_m r_k cfg ls c x v Aff PP SP Ex SM SK DM DK DB h0 rm0 rk0 Pv o Hs.
have [s [Hs1 Pa Ev Exx Eq]] := C51_two_iterations Aff PP Ex Hs.
have Pv' : proj me *m velocity s = velocity s by rewrite Ev mulmxDr Pv -scalemxAr Pa.
exists s; split=> //.
have := energy_balance x v (acceleration s) h SM SK; cbv zeta; rewrite -Ev -Exx => EB0.
rewrite -subr_le0 EB0.
have E0 : dot (velocity s) (mass me *m acceleration s) =
   - dot (velocity s) (Kp *m position s) - dot (velocity s) (rayleigh me r_m r_k (position s) *m velocity s).
  have := congr1 (dot (velocity s)) Eq; rewrite dot_tr SP Pv' dot0r !dotBr.
  have [-> _] := Aff; rewrite add0r mulNmx dotNr => /eqP; rewrite subr_eq0 => /eqP <- //.
rewrite E0 addrAC addNr add0r mulrN -opprD oppr_le0 addr_ge0 //.
  rewrite mulr_ge0 //; first by rewrite mulr_ge0 // addr_ge0 // ler01.
  have [_ [EK EB]] := Aff; rewrite /rayleigh EK EB scalerN opprK !mulmxDl !dotDr -!scalemxAl !dotZr.
  by rewrite !addr_ge0 ?mulr_ge0.
by rewrite mulr_ge0 ?mulr_ge0 ?addr_ge0.
Qed.
Print Assumptions C72_energy_partial.

(** With a single iteration the claim is false: a unit mass on a unit spring, started at rest position with velocity 1,
    has more energy after one step, whatever h > 0 and whatever the exact linear solver. *)
Definition spring (F : realFieldType) : mechanics F 1 := Mechanics (fun x => - x) (fun _ => - 1%:M) (fun _ => 0) 1%:M 1%:M.
Theorem C72_single_iteration_refuted :
  forall (F : realFieldType) h cfg ls c, 0 < h -> exact ls ->
    let o := solve (@dot F 1) cfg (euler_system (spring F) h 0 0) (Some ls) c (Some (begin_step 0 (const_mx 1))) in
    size (p_squared_residuals o.2) = 1%N ->
    exists2 s, o.1 = Some s &
      twice_energy (n := 1) 1%:M 1%:M 0 (const_mx 1) < twice_energy (n := 1) 1%:M 1%:M (position s) (velocity s).
Proof.
move=> F h cfg ls c h0 Ex o Hs.
have Aff : affine_mechanics (spring F) 0 (- 1%:M) 0.
  by split=> [y|]; [rewrite /= add0r mulNmx mul1mx | split].
have PP : projection (spring F) by rewrite /projection /= mul1mx.
have [_ H1 H2 H3] := C47_iterations (@dot F 1) cfg (euler_system (spring F) h 0 0) ls c (Some (begin_step 0 (const_mx 1))).
rewrite -/o in H1 H2 H3; rewrite Hs in H1 H2 H3.
have [_] := H3 0%N isT; rewrite take0 /= => /Ex [y [E Ey]].
have Y0 : y = 0.
  move: Ey; rewrite /euler_rhs /euler_matrix /constrain /mbk_matrix /addMBKdx /=.
  rewrite !(mul1mx, mulmx1, subrr, oppr0, scale0r, mul0mx, scaler0, mulmx0, addr0, mulr0, scale1r, add0r).
  rewrite scalerN mulNr scaleNr opprK => Ey.
  have D : 0 < 1 + h * h by rewrite addr_gt0 ?ltr01 // mulr_gt0.
  have : (1 + h * h) *: y = 0 by rewrite -Ey mulmxDl mul1mx -scalemxAl mul1mx scalerDl scale1r.
  by move=> /eqP; rewrite scaler_eq0 (gt_eqF D) /= => /eqP.
have Ho : o.1 = Some (at_acceleration h 0 (const_mx 1) 0).
  move: H2; case Ei : (increments _) H1 E => [|d [|]] //= _ ->; rewrite Y0 /state_after /= /euler_propagate /=.
  by rewrite addr0.
exists (at_acceleration h 0 (const_mx 1) 0); first exact: Ho.
rewrite /twice_energy /= scaler0 !addr0 !mul1mx add0r ltr_add2l dot0l /dot big_ord1 !mxE mulr1.
by rewrite mulr_gt0.
Qed.
Print Assumptions C72_single_iteration_refuted.

(** The hypotheses are met: the spring, an exact solver of 1 x 1 systems, two iterations. *)
Definition scalar_solver : linear_solver [lmodType rat of 'cV[rat]_1] (option 'M[rat]_1) :=
  @LinearSolver _ [lmodType rat of 'cV[rat]_1] (option 'M[rat]_1) (fun _ _ => true) (fun _ _ => true)
    (fun _ A f => match A, f with
     | Some A, Some f => if A 0 0 == 0 then Failed else Solved (Some (const_mx (f 0 0 / A 0 0)))
     | _, _ => Solved None
     end).
Lemma scalar_solver_exact : exact scalar_solver.
Proof.
move=> k A f dx /=; case: eqP => // /eqP HA [<-]; exists (const_mx (f 0 0 / A 0 0)); split=> //.
apply/matrixP => i j; rewrite !ord1 mxE big_ord1 mxE mulrC -mulrA mulVf ?mulr1 //.
Qed.
Definition two_iterations : config rat_realFieldType := Config (1 / 100%:R) 2 0 0 0 BEGINNING_OF_THE_TIME_STEP.

Example C51_C72_example :
  let o := solve (@dot _ 1) two_iterations (euler_system (spring rat_realFieldType) 1 0 0) (Some scalar_solver)
             run_component (Some (begin_step (const_mx 1) (const_mx 1))) in
  size (p_squared_residuals o.2) = 2%N.
Proof.
move=> o.
pose sys := euler_system (spring rat_realFieldType) 1 0 0.
pose s0 := begin_step (const_mx 1 : 'cV[rat_realFieldType]_1) (const_mx 1).
have [F1 F2 F3 F4] := C47_flag (@dot _ 1) two_iterations sys scalar_solver run_component (Some s0).
have [I1 I2 I3 I4] := C47_iterations (@dot _ 1) two_iterations sys scalar_solver run_component (Some s0).
have EM s : (euler_matrix (spring rat_realFieldType) 1 0 0 s) 0 0 = 1 + 1.
  rewrite /euler_matrix /constrain /mbk_matrix /= !mul1mx !mulmx1 subrr addr0.
  by rewrite !mxE /=.
rewrite -/o in F1 F2 F3 F4 I1 I2 I3 I4.
have Nc : ~~ d_converged o.2.
  by rewrite F1 /= negb_and; apply/orP; right; rewrite /criterion /=.
have Nf k s : lsolve scalar_solver k (matrix sys (Some s)) (rhs sys (Some s)) <> Failed.
  by rewrite /= EM.
have K0 : size (p_squared_residuals o.2) <> 0%N.
  move=> E; have := F4 Nc; rewrite E => /(_ isT) [[]//|].
  move: I2; rewrite E => /size0nil ->; case=> //.
  - by case.
  - exact: Nf.
have K1 : size (p_squared_residuals o.2) <> 1%N.
  move=> E; have [_] := I4 0%N (ltac:(by rewrite E)); rewrite take0.
  move=> /= ; rewrite EM /= => -[Ey].
  move: I2; rewrite E; case Ei : (increments _) Ey => [|d [|]] //= Ey _.
  move: F4; rewrite Ei -Ey E => /(_ Nc isT) [[_]|].
  - have [_ R1] := C47_recorded_residuals_partial (@dot _ 1) (cfg := two_iterations) sys scalar_solver run_component (Some s0) isT.
    have := R1 0%N; rewrite -/o E Ei -Ey => /(_ isT) ER; rewrite /broken ER /=.
    have -> : euler_rhs (spring rat_realFieldType) 1 0 0 s0 0 0 = -1.
      rewrite /euler_rhs /addMBKdx /= !mul1mx ?mul0mx ?mulmx0 ?scaler0 ?addr0 oppr0 ?scale0r ?addr0.
      by rewrite !mxE.
    by rewrite add0r /dot big_ord1 !mxE; vm_compute.
  - case=> //; [by case | exact: Nf].
by move: I1 K0 K1; case: (size _) => [|[|[|]]].
Qed.

Lemma scalar_runs (S : Type) cfg (sys : system [lmodType rat of 'cV[rat]_1] S (option 'M[rat]_1)) c s A f :
  (0 < newton_iterations cfg)%N -> absolute_residual_tolerance_threshold cfg <= 0 ->
  matrix sys s = Some A -> A 0 0 != 0 -> rhs sys s = Some f ->
  (0 < size (p_squared_residuals (solve (@dot _ 1) cfg sys (Some scalar_solver) c s).2))%N.
Proof.
move=> N a0 EA A0 Ef; rewrite lt0n; apply/negP => /eqP E.
have [F1 F2 F3 F4] := C47_flag (@dot _ 1) cfg sys scalar_solver c s.
have [_ I2 _ _] := C47_iterations (@dot _ 1) cfg sys scalar_solver c s.
move: F1 F4 I2; rewrite E andFb orbF => F1 F4 /size0nil Ei.
move: F1; rewrite ltNge a0 andFb => F1.
have Nc : ~~ d_converged (solve (@dot _ 1) cfg sys (Some scalar_solver) c s).2 by rewrite F1.
have [[]//|] := F4 Nc N; rewrite Ei /= EA Ef.
by case=> //; [case | rewrite (negbTE A0)].
Qed.

(** One iteration of the spring, as in the two theorems on a single iteration. *)
Example C51_C72_single_example :
  let cfg := Config (1 / 100%:R) 1 0 0 0 BEGINNING_OF_THE_TIME_STEP in
  let o := solve (@dot _ 1) cfg (euler_system (spring rat_realFieldType) 1 0 0) (Some scalar_solver)
             run_component (Some (begin_step 0 (const_mx 1))) in
  size (p_squared_residuals o.2) = 1%N.
Proof.
move=> cfg o.
have [I1 _ _ _] := C47_iterations (@dot _ 1) cfg (euler_system (spring rat_realFieldType) 1 0 0) scalar_solver run_component
  (Some (begin_step 0 (const_mx 1))).
apply/eqP; rewrite eqn_leq I1.
rewrite andTb; apply: (@scalar_runs _ _ _ _ _ (euler_matrix (spring rat_realFieldType) 1 0 0 (begin_step 0 (const_mx 1)))
  (euler_rhs (spring rat_realFieldType) 1 0 0 (begin_step 0 (const_mx 1)))) => //.
by rewrite /euler_matrix /constrain /mbk_matrix /= !mul1mx !mulmx1 subrr addr0 !mxE.
Qed.

(** The static solver on the spring, as in C50_one_step. *)
Example C50_example :
  let o := solve (@dot _ 1) two_iterations (static_system (spring rat_realFieldType)) (Some scalar_solver)
             run_component (Some (const_mx 1)) in
  (0 < size (p_squared_residuals o.2))%N.
Proof.
apply: (@scalar_runs _ _ _ _ _ (constrain 1%:M (mbk_matrix (spring rat_realFieldType) (const_mx 1) 0 0 (-1)))
  (1%:M *m - (const_mx 1))) => //.
by rewrite /constrain /mbk_matrix /= !mul1mx !mulmx1 subrr addr0 !mxE.
Qed.
