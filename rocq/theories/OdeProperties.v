(** Properties of the static and backward Euler solvers. *)

From mathcomp Require Import all_ssreflect all_algebra.
From Verif Require Import CGModel CGProofs NewtonModel NewtonSpec NewtonProofs NewtonProperties.
Set Implicit Arguments.
Unset Strict Implicit.
Unset Printing Implicit Defensive.
Import GRing.Theory Num.Theory Order.TTheory.
Local Open Scope ring_scope.

Section Algebra.
Variable F : realFieldType.
Variable n : nat.
Local Notation vec := ('cV[F]_n).
Local Notation mat := ('M[F]_n).

(** The solution of a constrained system. *)
Lemma constrained (P A : mat) (y f : vec) : P *m P = P -> constrain P A *m y = P *m f -> P *m y = y /\ P *m A *m y = P *m f.
Proof.
move=> PP H.
have Py : P *m y = y.
  have := congr1 (mulmx (1%:M - P)) H; rewrite mulmxA /constrain mulmxDr.
  have -> : (1%:M - P) *m (P *m A *m P) = 0 by rewrite mulmxBl mul1mx !mulmxA PP subrr.
  have -> : (1%:M - P) *m (1%:M - P) = 1%:M - P by rewrite mulmxBr mulmx1 mulmxBl mul1mx PP subrr subr0.
  rewrite add0r mulmxBl mul1mx mulmxA mulmxBl mul1mx PP subrr mul0mx => /eqP; rewrite subr_eq0 => /eqP.
  by move=> <-.
split=> //; move: H; rewrite /constrain mulmxDl mulmxBl mul1mx Py subrr addr0 => <-.
by rewrite -[in RHS]mulmxA Py.
Qed.
End Algebra.

Section Static.
Variable F : realFieldType.
Variable n : nat.
Variable me : mechanics F n.
Local Notation sys := (static_system me).

Lemma static_state x0 incs : state_after sys (Some x0) incs = oadd (V := [lmodType F of 'cV[F]_n]) (Some x0) (sum_of incs).
Proof.
rewrite /state_after /sum_of; elim/last_ind: incs => [|l d IH] /=; first by rewrite addr0.
rewrite -!cats1 !foldl_cat /= IH; case: (foldl _ (Some 0) l) => [u|] //=; case: d => [d|] //=.
by rewrite addrA.
Qed.
End Static.

(** C47 for the static solver: the final position is the initial one plus the sum of the increments. *)
Theorem C47_static_position :
  forall (F : realFieldType) n (me : mechanics F n) cfg ls c x0,
    let p := solve_progress (@dot F n) cfg (static_system me) ls c (Some x0) in
    (solve (@dot F n) cfg (static_system me) (Some ls) c (Some x0)).1 =
    oadd (V := [lmodType F of 'cV[F]_n]) (Some x0) (sum_of (increments p)).
Proof.
move=> F n me cfg ls c x0 p; have [_ H1 H2 _] := C47_iterations (@dot F n) cfg (static_system me) ls c (Some x0).
by rewrite H2 -H1 take_size static_state.
Qed.
Print Assumptions C47_static_position.

(** C50.  Affine force, exact linear solver: the position after the first iteration is in equilibrium (on the degrees of
    freedom that are not fixed), and the increment leaves the fixed ones where they were. *)
Theorem C50_one_step :
  forall (F : realFieldType) n (me : mechanics F n) g K B cfg ls c x0,
    affine_mechanics me g K B -> projection me -> exact ls ->
    let p := solve_progress (@dot F n) cfg (static_system me) ls c (Some x0) in
    (0 < size (increments p))%N ->
    exists dx, [/\ nth None (increments p) 0 = Some dx, proj me *m dx = dx & proj me *m force me (x0 + dx) = 0].
Proof.
move=> F n me g K B cfg ls c x0 [Hf [HK HB]] PP Ex p Hp.
have [_ H1 _ H2] := C47_iterations (@dot F n) cfg (static_system me) ls c (Some x0).
have K0 : (0 < size (p_squared_residuals (solve (@dot F n) cfg (static_system me) (Some ls) c (Some x0)).2))%N by rewrite -H1.
have [_ Hs] := H2 0%N K0.
move: Hs; rewrite take0 /= => /Ex [dx [E Ey]].
exists dx; rewrite E; have [P1 P2] := constrained PP Ey; split=> //.
move: P2; rewrite /mbk_matrix !scale0r !add0r HK scaleN1r => P2.
rewrite !Hf [K *m (_ + _)]mulmxDr addrA mulmxDr -Hf -P2 -mulmxA mulNmx mulmxN.
by rewrite addrC subrr.
Qed.
Print Assumptions C50_one_step.

(** With more than one iteration allowed and the absolute criterion on, it is reported: one iteration, residual 0. *)
Theorem C50_reported :
  forall (F : realFieldType) n (me : mechanics F n) g K B cfg ls c x0,
    affine_mechanics me g K B -> projection me -> exact ls ->
    (1 < newton_iterations cfg)%N -> 0 < absolute_residual_tolerance_threshold cfg ->
    let o := solve (@dot F n) cfg (static_system me) (Some ls) c (Some x0) in
    let p := solve_progress (@dot F n) cfg (static_system me) ls c (Some x0) in
    (0 < size (increments p))%N ->
    (forall dx, nth None (increments p) 0 = Some dx -> EPSILON cfg <= dot dx dx) ->
    [/\ d_converged o.2, p_squared_residuals o.2 = [:: Some 0] & exists x1, o.1 = Some x1 /\ proj me *m force me x1 = 0].
Proof.
move=> F n me g K B cfg ls c x0 Ha PP Ex N Abs o p Hp HE.
have [dx [E1 E2 E3]] := C50_one_step Ha PP Ex Hp.
have [F1 F2 F3 F4] := C47_flag (@dot F n) cfg (static_system me) ls c (Some x0).
have [I1 I2 I3 I4] := C47_iterations (@dot F n) cfg (static_system me) ls c (Some x0).
have [_ R1] := C47_recorded_residuals_partial (@dot F n) (static_system me) ls c (Some x0) N.
rewrite -/o -/p in F1 F2 F3 F4 I1 I2 I3 I4 R1.
have K0 : (0 < size (p_squared_residuals o.2))%N by rewrite -I2.
have Res : nth None (p_squared_residuals o.2) 0 = Some 0.
  rewrite R1 //; case Ei : (increments p) Hp E1 => [|d l] //= _ ->; rewrite take0 /= E3 dot0l //.
have S1 : sum_of (take 1 (increments p)) = Some dx.
  by case Ei : (increments p) Hp E1 => [|d l] //= _ ->; rewrite take0 /sum_of /= add0r.
have a2 : 0 < absolute_residual_tolerance_threshold cfg * absolute_residual_tolerance_threshold cfg by rewrite mulr_gt0.
have Cr : criterion (@dot F n) cfg (increments p) (p_squared_residuals o.2) (head None (p_squared_residuals o.2)) 1.
  by rewrite /criterion /= Res Abs /= a2 !orbT.
have Bd : ~~ broken (@dot F n) cfg (increments p) (p_squared_residuals o.2) 1.
  by rewrite /broken S1 /= Res E1 /= -leNgt; apply: HE.
have K1 : size (p_squared_residuals o.2) = 1%N.
  apply/eqP; rewrite eqn_leq K0 andbT leqNgt; apply/negP => H.
  by have [C _] := F3 1%N isT H; rewrite Cr in C.
split.
- by rewrite F1 K1 Cr Bd orbT.
- by case Er : (p_squared_residuals o.2) K1 Res => [|r [|]] //= _ ->.
exists (x0 + dx); split=> //.
by rewrite I3 K1 static_state S1.
Qed.
Print Assumptions C50_reported.
