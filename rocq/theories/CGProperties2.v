(** Properties of the conjugate gradient solver: preconditioners, projected systems, reported success. *)

From mathcomp Require Import all_ssreflect all_algebra.
From Verif Require Import CGModel CGSpec CGProofs CGProofs2 CGProofs3 CGProperties.
Set Implicit Arguments.
Unset Strict Implicit.
Unset Printing Implicit Defensive.
Import GRing.Theory Num.Theory Order.TTheory.
Local Open Scope ring_scope.

Lemma spd_diag (F : realFieldType) n (d : 'rV[F]_n) : (forall j, 0 < d 0 j) -> spd (diag_mx d).
Proof.
move=> H; split; first exact: tr_diag_mx.
move=> v Nv.
have E : dot v (diag_mx d *m v) = \sum_i d 0 i * (v i 0) ^+ 2.
  by rewrite /dot; apply: eq_bigr => i _; rewrite mul_diag_mx !mxE mulrCA expr2.
have G : 0 <= dot v (diag_mx d *m v) by rewrite E; apply: sumr_ge0 => i _; rewrite mulr_ge0 ?sqr_ge0 // ltW.
rewrite lt_neqAle G andbT eq_sym; apply/eqP => Z; case/eqP: Nv.
apply/matrixP => i j; rewrite (ord1 j) [RHS]mxE; apply/eqP.
move: Z; rewrite E => /eqP; rewrite psumr_eq0 => [/allP /(_ i (mem_index_enum i)) /=|l _].
  by rewrite mulf_eq0 gt_eqF //= expf_eq0.
by rewrite mulr_ge0 ?sqr_ge0 // ltW.
Qed.


(** The preconditioners of the solver meet the hypotheses of the theorems of C45; the second one divides by the diagonal. *)
Theorem C45_preconditioners :
  forall (F : realFieldType) n (A : 'M[F]_n),
    spd A -> spd (identity_preconditioner F n) /\ spd (diagonal_preconditioner A) /\
    forall (v : 'cV[F]_n) i, identity_preconditioner F n *m v = v /\ A i i * (diagonal_preconditioner A *m v) i 0 = v i 0.
Proof.
move=> F n A [SA PA].
have H j : 0 < A j j.
  pose e : 'cV[F]_n := delta_mx j 0.
  have Ne : e != 0 by apply/eqP => /matrixP /(_ j 0) /eqP; rewrite !mxE !eqxx oner_eq0.
  have := PA e Ne; rewrite -colE /dot (bigD1 j) //= big1 => [|i N]; first by rewrite !mxE !eqxx mul1r addr0.
  by rewrite !mxE (negbTE N) mul0r.
split; first by rewrite /identity_preconditioner -diag_const_mx; apply: spd_diag => j; rewrite mxE; exact: ltr01.
split; first by apply: spd_diag => j; rewrite mxE gt_eqF // invr_gt0.
move=> v i; split; first by rewrite mul1mx.
by rewrite /diagonal_preconditioner mul_diag_mx !mxE gt_eqF // mulVKf // gt_eqF.
Qed.
Print Assumptions C45_preconditioners.

(** With projective constraints: if A is symmetric positive definite and the right-hand side and the initial guess
    satisfy the constraints, the method without assembled matrix is the conjugate gradient method of the constrained
    system, whose matrix is symmetric positive definite; all theorems of C44 and C45 apply with that matrix. *)
Theorem C45_projected :
  forall (F : realFieldType) n (EPSILON zero tol : F) (P A : 'M[F]_n) b x0 max,
    orthogonal_projection P -> spd A -> P *m b = b -> P *m x0 = x0 ->
    let constrained := P *m A *m P + (1%:M - P) in
    spd constrained /\
    free_solve EPSILON zero max tol P A b x0 =
    solve EPSILON zero max tol (mulmx (identity_preconditioner F n)) constrained b x0.
Proof.
move=> F n EPS zero tol P A b x0 m [PT PP] [SA PA] Hb Hx B.
have BP (v : 'cV[F]_n) : P *m v = v -> B *m v = (P *m A) *m v.
  by move=> Hv; rewrite /B mulmxDl mulmxBl mul1mx Hv subrr addr0 -[in LHS]mulmxA Hv.
split.
  split; first by rewrite /B linearD linearB /= trmx1 !trmx_mul PT SA mulmxA.
  move=> v Nv; rewrite /B mulmxDl dotDr -!mulmxA (dot_tr P) PT.
  have Q : dot v ((1%:M - P) *m v) = squaredNorm (v - P *m v).
    have V : dot (P *m v) (P *m v) = dot v (P *m v) by rewrite -(dot_sym _ _ PT) mulmxA PP.
    by rewrite mulmxBl mul1mx /squaredNorm !dotBl !dotBr V (dotC (P *m v) v) subrr subr0.
  rewrite Q; case: (P *m v =P 0) => [Z | /eqP Z].
    by rewrite Z mulmx0 dot0l add0r subr0 squaredNorm_gt0.
  by rewrite ltr_paddr ?squaredNorm_ge0 // PA.
rewrite C44_matrix_free (@solve_ext F n (mulmx (identity_preconditioner F n)) id); last by move=> v; rewrite mul1mx.
rewrite /solve (BP _ Hx); do 2!case: ifP => // _.
have Hr0 : P *m (b - P *m A *m x0) = b - P *m A *m x0 by rewrite mulmxBr Hb !mulmxA PP.
suff G : forall t m x r p rho res it, P *m r = r -> P *m p = p ->
    iterations (P *m A) id t m x r p rho res it = iterations B id t m x r p rho res it by apply: G.
move=> t; elim=> [|k IH] x r p rho res it Hr Hp //=.
rewrite (BP _ Hp); do 3!case: ifP => // _; apply: IH.
  by rewrite mulmxBr -scalemxAr Hr !mulmxA PP.
by rewrite mulmxDr mulmxBr -!scalemxAr Hp Hr !mulmxA PP.
Qed.
Print Assumptions C45_projected.

(** C46.  It does not hold.  An initial guess that solves the system is always reported as a failure ... *)
Theorem C46_already_solved_refuted :
  forall (F : realFieldType) n (EPSILON zero tol : F) precond (A : 'M[F]_n) b x0 max,
    0 < zero -> EPSILON <= squaredNorm b -> A *m x0 = b ->
    solve EPSILON zero max tol precond A b x0 = Defined (Outcome x0 false [::] 1).
Proof.
move=> F n EPS zero tol pc A b x0 m Z HE H; rewrite /solve ltNge HE /= H subrr /squaredNorm dot0l.
by rewrite lt_maxr Z orbT.
Qed.
Print Assumptions C46_already_solved_refuted.

(** ... and so is a zero right-hand side.  The solution 0 is left in the vector of the solver but, because of the
    reported failure, is not given to the mechanical objects, which keep the initial guess, whatever its residual. *)
Theorem C46_zero_right_hand_side_refuted :
  forall (F : realFieldType) n (EPSILON zero tol : F) precond (A : 'M[F]_n) x0 max,
    0 < EPSILON ->
    solve EPSILON zero max tol precond A 0 x0 = Defined (Outcome 0 false [::] 1) /\
    solveSystem EPSILON zero max tol precond A 0 x0 = x0.
Proof. by move=> F n EPS zero tol pc A x0 m HE; rewrite /solveSystem /solve /squaredNorm dot0l HE. Qed.
Print Assumptions C46_zero_right_hand_side_refuted.

(** A right-hand side that is only small is treated in the same way, however small the requested tolerance: the result
    0 then has a relative residual of 1. *)
Theorem C46_small_right_hand_side_refuted :
  forall (F : realFieldType) n (EPSILON zero tol : F) precond (A : 'M[F]_n) b x0 max,
    squaredNorm b < EPSILON ->
    solve EPSILON zero max tol precond A b x0 = Defined (Outcome 0 false [::] 1) /\
    residual A b 0 = squaredNorm b.
Proof. by move=> F n EPS zero tol pc A b x0 m HE; rewrite /solve /residual HE mulmx0 subr0. Qed.
Print Assumptions C46_small_right_hand_side_refuted.

(** What does hold: a solve that has something to do, on a symmetric positive definite matrix and with at least n
    iterations allowed, reports success, and the mechanical objects receive the vector found. *)
Theorem C46_success_partial :
  forall (F : realFieldType) n (EPSILON zero tol : F) (A M : 'M[F]_n) b x0 max,
    spd A -> spd M -> 0 < zero ->
    EPSILON <= squaredNorm b ->
    Num.max (tol * tol * squaredNorm b) zero <= residual A b x0 ->
    (n <= max)%N ->
    exists o, [/\ solve EPSILON zero max tol (mulmx M) A b x0 = Defined o, converged o &
      solveSystem EPSILON zero max tol (mulmx M) A b x0 = solution o].
Proof.
move=> F n EPS zero tol A M b x0 m SA SM Z HE HR Hn.
have [o Ho] := C45_no_breakdown EPS tol b x0 m SA SM Z; exists o.
have C : converged o; last by split=> //; rewrite /solveSystem Ho C.
have [F1 F2 F3 _] := C44_flag Ho; have [T1 T2 T3] := C45_finite_termination SA SM Z Ho.
have D := C44_recorded_residuals Ho; case: D => D1 D2 D3.
case C: (converged o) => //; have := F3 (negbT C).
rewrite ltNge HE /= ltNge HR /= => K.
have := T3 Hn HE; rewrite D2 ltNge => /negP []; rewrite -D2.
case E: (size (squared_residuals o)) => [|k].
  have n0 : n = 0%N by move: Hn; rewrite -K E leqn0 => /eqP.
  by rewrite (no_rows (solution o) x0 n0).
have Hk : (k < size (squared_residuals o))%N by rewrite E.
rewrite D2 E -(D3 k Hk); have := F1 k Hk; rewrite C /= => /negbT; by rewrite -leNgt.
Qed.
Print Assumptions C46_success_partial.

(** A concrete case, over the rational numbers: a 2 x 2 system. *)
Definition exA : 'M[rat]_2 := \matrix_(i, j) (if i == j then 1 + 1 else 1).
Definition exb : 'cV[rat]_2 := \col_i 1.
Definition sum2 : forall f : 'I_2 -> rat, \sum_i f i = f 0 + f 1.
Proof. by move=> f; rewrite big_ord_recl big_ord1; congr (f _ + f _); apply: val_inj. Qed.

Lemma exA_spd : spd exA.
Proof.
split; first by apply/matrixP => i j; rewrite !mxE eq_sym.
move=> v Nv.
have E : dot v (exA *m v) = (v 0 0 + v 1 0) ^+ 2 + (v 0 0 ^+ 2 + v 1 0 ^+ 2).
  rewrite /dot sum2 !mxE !sum2 !mxE ?eqxx !mulrDl !mul1r !mulrDr -!expr2 [v 1 0 * v 0 0]mulrC sqrrD !mulr2n.
  move: (v 0 0 ^+ 2) (v 1 0 ^+ 2) (v 0 0 * v 1 0) => x y z.
  by rewrite -!addrA; congr (_ + _); do 2!(rewrite [LHS]addrCA; congr (_ + _)); rewrite [LHS]addrCA.
rewrite E ltr_paddl ?sqr_ge0 //; have S : 0 < squaredNorm v by rewrite squaredNorm_gt0.
by move: S; rewrite /squaredNorm /dot sum2 -!expr2.
Qed.

Example C44_C45_C46_example : exists o,
  [/\ solve (1 / 100%:R) (1 / 1000%:R) 5 (1 / 10%:R) (mulmx (diagonal_preconditioner exA)) exA exb 0 = Defined o,
      converged o & (0 < size (squared_residuals o))%N].
Proof.
have B : squaredNorm exb = 2%:R by rewrite /squaredNorm /dot sum2 !mxE mulr1.
have [_ [SM _]] := C45_preconditioners exA_spd.
have [||||o [H C _]] := @C46_success_partial _ 2 (1 / 100%:R) (1 / 1000%:R) (1 / 10%:R) exA _ exb 0 5 exA_spd SM.
- by [].
- by rewrite B.
- by rewrite /residual mulmx0 subr0 B.
- by [].
exists o; split=> //; by have [_ F2 _ _] := C44_flag H; apply: F2.
Qed.
