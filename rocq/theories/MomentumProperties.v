(** C104: an isolated body keeps its momentum. *)

From mathcomp Require Import all_ssreflect all_algebra.
From Coq Require Import Ring.
From Verif Require Import FieldRing CGModel CGSpec CGProofs NewtonModel NewtonSpec NewtonProofs NewtonProperties OdeProperties OdeProperties2 MomentumSpec.
Set Implicit Arguments.
Unset Strict Implicit.
Unset Printing Implicit Defensive.
Import GRing.Theory Num.Theory Order.TTheory.
Local Open Scope ring_scope.

Section Step.
Variable F : realFieldType.
Add Ring scalar_ring : (@field_ring_theory F).
Variable n : nat.
Variable me : mechanics F n.
Variables h r_m r_k : F.
Local Notation vec := ('cV[F]_n).
Variables (w : vec) (G : F).
Hypothesis Load : loaded_by me w G.
Hypothesis PP : projection me.

Lemma euler_law (A V' : F) : (1 + h * r_m) * A = G - r_m * V' -> (1 + h * r_m) * (V' + h * A) = V' + h * G.
Proof.
move=> E; have -> : (1 + h * r_m) * (V' + h * A) = (1 + h * r_m) * V' + h * ((1 + h * r_m) * A) by fring F.
rewrite E; fring F.
Qed.
Lemma along_stiffness x y : dot w (stiffness me x *m y) = 0.
Proof. by have [_ H _ _] := Load; rewrite dot_tr H dot0l. Qed.
Lemma along_damping x y : dot w (damping me x *m y) = 0.
Proof. by have [_ _ H _] := Load; rewrite dot_tr H dot0l. Qed.
Lemma along_proj y : dot w (proj me *m y) = dot w y.
Proof. by have [_ _ _ H] := Load; rewrite dot_tr H. Qed.

Lemma one_iteration (s : dynamic_state F n) (y : vec) :
  euler_matrix me h r_m r_k s *m y = euler_rhs me h r_m r_k s ->
  (1 + h * r_m) * momentum (mass me) w (acceleration s + y) = G - r_m * momentum (mass me) w (previous_v s).
Proof.
rewrite /euler_matrix /euler_rhs => E; have [_] := constrained PP E.
move=> /(congr1 (dot w)); rewrite -mulmxA !along_proj /mbk_matrix /addMBKdx !mulmxDl -!scalemxAl !dotDr !dotZr.
rewrite !along_stiffness !along_damping; have [Hf _ _ _] := Load; rewrite Hf /momentum mulmxDr dotDr.
move: (dot w (mass me *m y)) (dot w (mass me *m acceleration s)) (dot w (mass me *m previous_v s)) => Y A V' E1.
have -> : (1 + h * r_m) * (A + Y) = (1 + h * r_m) * Y + h * 0 + - h * (h + r_k) * 0 + (1 + h * r_m) * A by fring F.
rewrite E1; fring F.
Qed.

Variable ls : linear_solver [lmodType F of vec] (option 'M[F]_n).
Hypothesis Ex : exact ls.
Variable cfg : config F.
Variable c : component F.
Variables x v : vec.
Local Notation sys := (euler_system me h r_m r_k).
Let p := solve_progress (@dot F n) cfg sys ls c (Some (begin_step x v)).

Lemma momentum_sequence k : (k < size (increments p))%N ->
  exists a, state_after sys (Some (begin_step x v)) (take k.+1 (increments p)) = Some (at_acceleration h x v a) /\
    (1 + h * r_m) * momentum (mass me) w a = G - r_m * momentum (mass me) w v.
Proof.
have [_ H1 _ H2] := C47_iterations (@dot F n) cfg sys ls c (Some (begin_step x v)).
rewrite -/p in H1 H2.
have N1 j : (j < size (increments p))%N -> state_after sys (Some (begin_step x v)) (take j.+1 (increments p)) =
    propagate sys (state_after sys (Some (begin_step x v)) (take j (increments p))) (nth None (increments p) j).
  by move=> Hj; rewrite (take_nth None) // /state_after -cats1 foldl_cat.
elim: k => [|k IH] Hk.
  have K0 : (0 < size (p_squared_residuals (solve (@dot F n) cfg sys (Some ls) c (Some (begin_step x v))).2))%N by rewrite -H1.
  have [_] := H2 0%N K0; rewrite take0 /= => /Ex [y [E Ey]].
  exists y; split; first by rewrite N1 // take0 E /= /euler_propagate /= /at_acceleration add0r.
  by have := one_iteration Ey; rewrite /= add0r.
have [a [S1 S2]] := IH (ltnW Hk).
have K0 : (k.+1 < size (p_squared_residuals (solve (@dot F n) cfg sys (Some ls) c (Some (begin_step x v))).2))%N by rewrite -H1.
have [_] := H2 _ K0; rewrite S1 /= => /Ex [y [E Ey]].
exists (a + y); split; first by rewrite N1 // S1 E.
exact: (one_iteration Ey).
Qed.

Lemma momentum_step : let o := solve (@dot F n) cfg sys (Some ls) c (Some (begin_step x v)) in
  if size (p_squared_residuals o.2) is 0%N then o.1 = Some (begin_step x v)
  else exists a, o.1 = Some (at_acceleration h x v a) /\ (1 + h * r_m) * momentum (mass me) w a = G - r_m * momentum (mass me) w v.
Proof.
move=> o; have [_ H1 H2 _] := C47_iterations (@dot F n) cfg sys ls c (Some (begin_step x v)).
rewrite -/p -/o in H1 H2; case E : (size (p_squared_residuals o.2)) => [|k].
  by rewrite H2 E take0.
have Hk : (k < size (increments p))%N by rewrite H1 E.
by have [a [S1 S2]] := momentum_sequence Hk; exists a; rewrite H2 E S1.
Qed.
End Step.

(** One step, any forces (linear or not), any number of iterations, whether they converge or not: the momentum follows
    backward Euler for the external load and the damping by the mass alone, and the centre of mass moves with the new
    momentum. *)
Theorem C104_step :
  forall (F : realFieldType) n (me : mechanics F n) w G h r_m r_k cfg ls c x v,
    loaded_by me w G -> projection me -> exact ls ->
    let o := solve (@dot F n) cfg (euler_system me h r_m r_k) (Some ls) c (Some (begin_step x v)) in
    (0 < size (p_squared_residuals o.2))%N ->
    exists s, [/\ o.1 = Some s,
      (1 + h * r_m) * momentum (mass me) w (velocity s) = momentum (mass me) w v + h * G &
      moment_of_mass (mass me) w (position s) = moment_of_mass (mass me) w x + h * momentum (mass me) w (velocity s)].
Proof.
move=> F n me w G h r_m r_k cfg ls c x v Load PP Ex o Hs.
have := momentum_step h r_m r_k Load PP Ex cfg c x v; cbv zeta; rewrite -/o.
move: Hs; case: (size (p_squared_residuals o.2)) => [|k] // _ [a [E1 E2]]; exists (at_acceleration h x v a); split=> //.
  by rewrite /= /momentum mulmxDr -scalemxAr dotDr dotZr; apply: euler_law.
by rewrite /= /moment_of_mass /momentum mulmxDr -scalemxAr dotDr dotZr.
Qed.
Print Assumptions C104_step.

(** A whole simulation without damping by the mass: nothing outside, nothing changes, whatever the steps do (fail, stop,
    diverge, do nothing)... *)
Theorem C104_isolated :
  forall (F : realFieldType) n (me : mechanics F n) w r_k steps c x v,
    isolated me w -> projection me -> (forall i, (i < size steps)%N -> forall d, exact (solver (nth d steps i))) ->
    exists x' v' its, simulate me 0 r_k steps c x v = Some (x', v', its) /\ momentum (mass me) w v' = momentum (mass me) w v.
Proof.
move=> F n me w r_k steps c x v Iso PP; elim: steps c x v => [|t steps IH] c x v Ex; first by exists x, v, [::].
have Ex0 : exact (solver t) := Ex 0%N isT t.
have Ex1 i : (i < size steps)%N -> forall d, exact (solver (nth d steps i)) by move=> Hi d; apply: (Ex i.+1 Hi d).
cbn [simulate]; set o := solve _ _ _ _ _ _.
have := momentum_step (size_of_step t) 0 r_k Iso PP Ex0 (parameters t) c x v; cbv zeta; rewrite -/o.
case E : (size (p_squared_residuals o.2)) => [|k].
  move=> ->; have [x' [v' [its [E1 E2]]]] := IH o.2 x v Ex1.
  by exists x', v', (0%N :: its); rewrite /= E1.
move=> [a [-> E2]]; have [x' [v' [its [E3 E4]]]] := IH o.2 (position (at_acceleration (size_of_step t) x v a)) (velocity (at_acceleration (size_of_step t) x v a)) Ex1.
exists x', v', (k.+1 :: its); rewrite E3; split=> //; rewrite E4 /= /momentum mulmxDr -scalemxAr dotDr dotZr.
by move: E2; rewrite mulr0 addr0 mul1r mul0r subrr /momentum => ->; rewrite mulr0 addr0.
Qed.
Print Assumptions C104_isolated.

(** ... and under an external load, when every step does at least one iteration, the momentum grows with the time, and
    without load the centre of mass moves at constant velocity. *)
Theorem C104_loaded_partial :
  forall (F : realFieldType) n (me : mechanics F n) w G r_k steps c x v x' v' its,
    loaded_by me w G -> projection me -> (forall i, (i < size steps)%N -> forall d, exact (solver (nth d steps i))) ->
    simulate me 0 r_k steps c x v = Some (x', v', its) -> all (fun k => 0 < k)%N its ->
    momentum (mass me) w v' = momentum (mass me) w v + duration steps * G /\
    (G = 0 -> moment_of_mass (mass me) w x' = moment_of_mass (mass me) w x + duration steps * momentum (mass me) w v).
Proof.
move=> F n me w G r_k steps c x v x' v' its Load PP; elim: steps c x v its => [|t steps IH] c x v its Ex.
  by move=> [<- <- _] _; rewrite /duration big_nil !mul0r !addr0.
have Ex0 : exact (solver t) := Ex 0%N isT t.
have Ex1 i : (i < size steps)%N -> forall d, exact (solver (nth d steps i)) by move=> Hi d; apply: (Ex i.+1 Hi d).
cbn [simulate]; set o := solve _ _ _ _ _ _; case Eo : o.1 => [s|] //.
case Es : (simulate _ _ _ _ _ _ _) => [[[x1 v1] its1]|] //= [Ex' Ev' <-]; subst x1 v1 => /= /andP [K0 K1].
have [s' [E1 E2 E3]] := C104_step Load PP Ex0 K0; rewrite -/o Eo in E1; case: E1 => E1; subst s'.
have [P1 P2] := IH _ _ _ _ Ex1 Es K1; rewrite mulr0 addr0 mul1r in E2.
rewrite /duration big_cons -/(duration steps); split; first by rewrite P1 E2 mulrDl addrA.
by move=> G0; rewrite (P2 G0) E3 E2 G0 mulr0 addr0 mulrDl addrA.
Qed.
Print Assumptions C104_loaded_partial.

(** A body in free flight: no forces at its position, moving so that stiffness and damping resist nothing.  With an absolute
    threshold (there is one by default) the solver finds that the body "has already reached an equilibrium state", declares
    convergence, and leaves it where it is, whatever its velocity. *)
Theorem C104_free_flight_refuted :
  forall (F : realFieldType) n (me : mechanics F n) h r_k cfg ls c x v,
    force me x = 0 -> stiffness me x *m v = 0 -> damping me x *m v = 0 ->
    0 < absolute_residual_tolerance_threshold cfg ->
    let o := solve (@dot F n) cfg (euler_system me h 0 r_k) (Some ls) c (Some (begin_step x v)) in
    [/\ o.1 = Some (begin_step x v), position (begin_step x v) = x, velocity (begin_step x v) = v & d_converged o.2].
Proof.
move=> F n me h r_k cfg ls c x v Hf HK HB a0 o.
have R0 : euler_rhs me h 0 r_k (begin_step x v) = 0.
  by rewrite /euler_rhs /addMBKdx /= Hf HK HB !mulmx0 !scaler0 oppr0 scale0r !addr0 mulmx0.
have [F1 F2 _ _] := C47_flag (@dot F n) cfg (euler_system me h 0 r_k) ls c (Some (begin_step x v)).
have [_ H1 H2 _] := C47_iterations (@dot F n) cfg (euler_system me h 0 r_k) ls c (Some (begin_step x v)).
have AR : (0 < absolute_residual_tolerance_threshold cfg) && ole (norm2 (@dot F n) (rhs (euler_system me h 0 r_k) (Some (begin_step x v))))
   (Some (absolute_residual_tolerance_threshold cfg * absolute_residual_tolerance_threshold cfg)).
  by rewrite a0 /= R0 dot0l mulr_ge0 // ltW.
rewrite -/o in F1 F2 H1 H2; have K0 := F2 AR; split=> //; first by rewrite H2 K0 take0.
by rewrite F1 AR.
Qed.
Print Assumptions C104_free_flight_refuted.

(** ** Witnesses *)

(** Two unit masses on a line, a spring between them, a constant load of total 3; a direct solver. *)
Definition coupling : 'M[rat]_2 := \matrix_(i, j) if i == j then -1 else 1.
Definition load : 'cV[rat]_2 := \col_i if i == 0 then 1 else 2.
Definition pair : mechanics rat_realFieldType 2 := Mechanics (fun x => load + coupling *m x) (fun _ => coupling) (fun _ => 0) 1%:M 1%:M.
Definition along : 'cV[rat]_2 := const_mx 1.
Definition direct (n : nat) : linear_solver [lmodType rat of 'cV[rat]_n] (option 'M[rat]_n) :=
  @LinearSolver _ [lmodType rat of 'cV[rat]_n] (option 'M[rat]_n) (fun _ _ => true) (fun _ _ => true)
    (fun _ A f => match A, f with
     | Some A, Some f => if A \in unitmx then Solved (Some (invmx A *m f)) else Failed
     | _, _ => Solved None
     end).
Lemma direct_exact n : exact (direct n).
Proof. by move=> k A f dx /=; case: ifP => // HA [<-]; exists (invmx A *m f); rewrite mulKVmx. Qed.
Lemma pair_loaded : loaded_by pair along (1 + 2%:R).
Proof.
have C : coupling^T *m along = 0.
  by apply/matrixP => i j; rewrite !mxE !big_ord_recl big_ord0 !mxE; case: i => [[|[|]]].
split=> [x|x|x|] /=.
- rewrite dotDr dot_tr C dot0l addr0 /dot !big_ord_recl big_ord0 !mxE; by vm_compute.
- exact: C.
- by rewrite trmx0 mul0mx.
- by rewrite trmx1 mul1mx.
Qed.
Lemma pair_projection : projection pair.
Proof. by rewrite /projection /= mul1mx. Qed.
(** The system of a step of size 1 is regular. *)
Lemma pair_regular s : euler_matrix pair 1 0 0 s \in unitmx.
Proof.
have -> : euler_matrix pair 1 0 0 s = \matrix_(i, j) if i == j then 2%:R else -1.
  rewrite /euler_matrix /constrain /mbk_matrix /= !mul1mx !mulmx1 subrr.
  by apply/matrixP => i j; rewrite !mxE; case: i => [[|[|]]] // ?; case: j => [[|[|]]] // ?; apply/eqP; vm_compute.
pose A : 'M[rat]_2 := \matrix_(i, j) (if i == j then 2%:R else -1); pose B : 'M[rat]_2 := \matrix_(i, j) (if i == j then 2%:R / 3%:R else 1 / 3%:R).
have E : A *m B = 1%:M.
  apply/matrixP => i j; rewrite !mxE !big_ord_recl big_ord0 !mxE.
  by case: i => [[|[|]]] // ?; case: j => [[|[|]]] // ?; apply/eqP; vm_compute.
by case: (mulmx1_unit E).
Qed.
(** Without absolute threshold every step of the pair does an iteration. *)
Lemma pair_iterates cfg c x v : (0 < newton_iterations cfg)%N -> absolute_residual_tolerance_threshold cfg <= 0 ->
  (0 < size (p_squared_residuals (solve (@dot _ 2) cfg (euler_system pair 1 0 0) (Some (direct 2)) c (Some (begin_step x v))).2))%N.
Proof.
move=> N a0; rewrite lt0n; apply/negP => /eqP E.
have [F1 F2 F3 F4] := C47_flag (@dot _ 2) cfg (euler_system pair 1 0 0) (direct 2) c (Some (begin_step x v)).
have [_ I2 _ _] := C47_iterations (@dot _ 2) cfg (euler_system pair 1 0 0) (direct 2) c (Some (begin_step x v)).
move: F1 F4 I2; rewrite E andFb orbF => F1 F4 /size0nil Ei.
move: F1; rewrite ltNge a0 andFb => F1.
have [[]//|] := F4 (ltac:(by rewrite F1)) N; rewrite Ei /= pair_regular.
by case=> //; case.
Qed.
Definition steps_of_pair : seq (time_step rat_realFieldType 2) :=
  [:: TimeStep 1 (Config 0 1 0 0 0 ALWAYS) (direct 2); TimeStep 1 (Config 0 3 0 0 (-1) BEGINNING_OF_THE_TIME_STEP) (direct 2)].
(** Two steps: 1 iteration allowed, then 3; the momentum went from 5 to 11. *)
Example C104_example : forall c, let v : 'cV[rat]_2 := \col_i if i == 0 then 1 else 4%:R in
  exists x' v' its, simulate pair 0 0 steps_of_pair c (\col_i if i == 0 then 0 else 7%:R) v = Some (x', v', its) /\
    all (fun k => 0 < k)%N its /\ momentum (mass pair) along v = 5%:R /\ momentum (mass pair) along v' = 11%:R.
Proof.
move=> c v; set x : 'cV[rat]_2 := \col_i _.
have E5 : momentum (mass pair) along v = 5%:R by rewrite /momentum /= mul1mx /dot !big_ord_recl big_ord0 !mxE; vm_compute.
cbn [simulate steps_of_pair parameters size_of_step solver]; set o := solve _ _ _ _ _ _.
have K1 : (0 < size (p_squared_residuals o.2))%N by apply: pair_iterates.
have [s [S1 S2 _]] := C104_step pair_loaded pair_projection (direct_exact (n := 2)) K1; rewrite -/o in S1; rewrite S1.
set o' := solve _ _ _ _ _ _.
have K2 : (0 < size (p_squared_residuals o'.2))%N by apply: pair_iterates.
have [s' [S1' S2' _]] := C104_step pair_loaded pair_projection (direct_exact (n := 2)) K2; rewrite -/o' in S1'; rewrite S1'.
exists (position s'), (velocity s'), [:: size (p_squared_residuals o.2); size (p_squared_residuals o'.2)]; split=> //; split; first by rewrite /= K1 K2.
split=> //; move: S2' S2; rewrite !mulr0 !addr0 !mul1r => -> ->; rewrite E5; by vm_compute.
Qed.
(** Without the load the same pair is isolated; moving as a whole it is in free flight, and stays where it is. *)
Definition free_pair : mechanics rat_realFieldType 2 := Mechanics (fun x => coupling *m x) (fun _ => coupling) (fun _ => 0) 1%:M 1%:M.
Example C104_isolated_example : isolated free_pair along /\ projection free_pair.
Proof.
have C : coupling^T *m along = 0.
  by apply/matrixP => i j; rewrite !mxE !big_ord_recl big_ord0 !mxE; case: i => [[|[|]]].
split; last by rewrite /projection /= mul1mx.
split=> [x|x|x|] /=; [by rewrite dot_tr C dot0l|exact: C|by rewrite trmx0 mul0mx|by rewrite trmx1 mul1mx].
Qed.
Example C104_frozen : forall cfg c, 0 < absolute_residual_tolerance_threshold cfg ->
  let o := solve (@dot _ 2) cfg (euler_system free_pair 1 0 0) (Some (direct 2)) c (Some (begin_step 0 along)) in
  o.1 = Some (begin_step 0 along) /\ d_converged o.2 /\ momentum (mass free_pair) along along = 2%:R.
Proof.
move=> cfg c a0 o.
have C : coupling *m along = 0.
  by apply/matrixP => i j; rewrite !mxE !big_ord_recl big_ord0 !mxE; case: i => [[|[|]]].
have [] := C104_free_flight_refuted (me := free_pair) 1 0 (direct 2) c (x := 0) (v := along) _ C _ a0.
- by rewrite /= mulmx0.
- by rewrite /= mul0mx.
move=> E1 _ _ E2; split; [exact: E1|split; [exact: E2|]].
by rewrite /momentum /= mul1mx /dot !big_ord_recl big_ord0 !mxE; vm_compute.
Qed.
