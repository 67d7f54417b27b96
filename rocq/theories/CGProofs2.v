(** Conjugate gradient: theory of the sequence of states for symmetric positive definite matrices. *)

From mathcomp Require Import all_ssreflect all_algebra.
From Verif Require Import CGModel CGSpec CGProofs.
Set Implicit Arguments.
Unset Strict Implicit.
Unset Printing Implicit Defensive.
Import GRing.Theory Num.Theory Order.TTheory.
Local Open Scope ring_scope.

Section Spd.
Variable F : realFieldType.
Variable n : nat.
Variables A M : 'M[F]_n.
Variables b x0 : 'cV[F]_n.

Definition r0 := b - A *m x0.
Definition s0 : state F n := St x0 r0 (M *m r0) (dot r0 (M *m r0)).
Definition st k := iter k (step A (mulmx M)) s0.
Definition X k := sx (st k).
Definition R k := sr (st k).
Definition P k := sp (st k).
Definition Rho k := srho (st k).
Definition En k := dot (P k) (A *m P k).
Definition Al k := Rho k / En k.
Definition Be k := Rho k.+1 / Rho k.

Lemma XS k : X k.+1 = X k + Al k *: P k. Proof. by []. Qed.
Lemma RS k : R k.+1 = R k - Al k *: (A *m P k). Proof. by []. Qed.
Lemma PS k : P k.+1 = M *m R k.+1 + Be k *: P k. Proof. by []. Qed.
Lemma RhoE k : Rho k = dot (R k) (M *m R k). Proof. by case: k. Qed.
Lemma R_true k : R k = b - A *m X k.
Proof.
elim: k => [|k IH] //.
by rewrite RS XS IH mulmxDr -scalemxAr opprD addrA.
Qed.
Lemma MR0 : M *m R 0 = P 0. Proof. by []. Qed.
Lemma MRS k : M *m R k.+1 = P k.+1 - Be k *: P k.
Proof. by rewrite PS addrK. Qed.

(** A vector orthogonal to the first directions is orthogonal to the first preconditioned residuals. *)
Lemma orth_MR v k : (forall j, (j <= k)%N -> dot v (P j) = 0) -> dot v (M *m R k) = 0.
Proof.
case: k => [|k] H; first by rewrite MR0 H.
by rewrite MRS dotBr dotZr !H ?mulr0 ?subr0 // leqnSn.
Qed.

Hypothesis SA : spd A.
Hypothesis SM : spd M.

(** Valid as long as the residuals before k do not vanish. *)
Definition alive k := forall j, (j < k)%N -> R j != 0.
Lemma alive_le j k : (j <= k)%N -> alive k -> alive j.
Proof. by move=> H K i Hi; apply: K; apply: leq_trans H. Qed.

Definition inv k :=
  [/\ dot (R k) (P k) = Rho k, forall j, (j < k)%N -> dot (R k) (P j) = 0 &
      forall j, (j < k)%N -> dot (P k) (A *m P j) = 0].

Lemma inv_pos k : inv k -> R k != 0 -> 0 < Rho k /\ 0 < En k.
Proof.
move=> [I1 _ _] N.
have H : 0 < Rho k by rewrite RhoE; apply: SM.2.
split=> //; apply: SA.2; apply/eqP => Z.
by move: H; rewrite -I1 Z dot0r ltxx.
Qed.

Lemma invs k : alive k -> inv k.
Proof.
elim/ltn_ind: k => k IH; case: k IH => [|k] IH Hk.
  by split=> //; rewrite RhoE.
have Hi : forall j, (j <= k)%N -> inv j by move=> j Hj; apply: IH => //; apply: alive_le Hk; apply: leqW.
have [I1 I2 I3] := Hi k (leqnn k).
have [Hrho Hen] := inv_pos (Hi k (leqnn k)) (Hk k (leqnn _)).
have C : forall j, (j < k.+1)%N -> dot (R k.+1) (P j) = 0.
  move=> j; rewrite ltnS leq_eqVlt => /orP [/eqP -> | Hj].
    rewrite RS dotBl dotZl dotC (dotC (A *m _)) dotC I1 /Al -/(En k) divfK ?subrr //.
    by rewrite gt_eqF.
  by rewrite RS dotBl dotZl I2 // -(dot_sym _ _ SA.1) I3 // mulr0 subr0.
split=> //.
  by rewrite PS dotDr dotZr C // mulr0 addr0 -RhoE.
move=> j Hj; rewrite PS dotDl dotZl.
have [Hrj Hej] : 0 < Rho j /\ 0 < En j by apply: inv_pos; [apply: Hi | apply: Hk].
have Hal : Al j != 0 by rewrite /Al mulf_neq0 // ?invr_eq0 gt_eqF.
have AP : A *m P j = (Al j)^-1 *: (R j - R j.+1).
  by rewrite RS opprB addrC subrK scalerA mulVf // scale1r.
have HMR : forall l, (l <= k)%N -> dot (M *m R k.+1) (R l) = 0.
  move=> l Hl; rewrite -(dot_sym _ _ SM.1); apply: orth_MR => i Hil; apply: C.
  by rewrite ltnS; apply: leq_trans Hl.
move: Hj; rewrite ltnS leq_eqVlt => /orP [/eqP E | Hj].
  rewrite {}E in Hrj Hej Hal AP *.
  rewrite {1}AP dotZr dotBr HMR // sub0r -[dot (P k) _]/(En k) dotC -RhoE /Al /Be invf_div.
  by rewrite mulrN addrC mulrAC [X in _ - X]mulrAC [En k * _]mulrC subrr.
by rewrite I3 // mulr0 addr0 AP dotZr dotBr !HMR // ?subrr ?mulr0 //; apply: ltnW.
Qed.

Lemma pos k : alive k.+1 -> 0 < Rho k /\ 0 < En k.
Proof. by move=> H; apply: inv_pos; [apply: invs; apply: alive_le H | apply: H]. Qed.

Lemma Al_pos k : alive k.+1 -> 0 < Al k.
Proof. by move=> /pos [H1 H2]; rewrite /Al divr_gt0. Qed.

Lemma conj_lt i j k : (i < j)%N -> (j < k)%N -> alive k -> dot (P j) (A *m P i) = 0.
Proof. by move=> H K L; have [_ _] := invs (alive_le (ltnW K) L); apply. Qed.

Lemma incr k : X k.+1 - X k = Al k *: P k.
Proof. by rewrite XS addrAC subrr add0r. Qed.

(** Conjugate increments. *)
Lemma incr_conj i j k : (i < k)%N -> (j < k)%N -> i <> j -> alive k ->
  dot (X i.+1 - X i) (A *m (X j.+1 - X j)) = 0.
Proof.
move=> Hi Hj N L; rewrite !incr -scalemxAr dotZl dotZr.
case: (ltngtP i j) => // H; last by rewrite (conj_lt H Hi L) !mulr0.
by rewrite (dot_sym _ _ SA.1) dotC (conj_lt H Hj L) !mulr0.
Qed.

Lemma incr_neq0 k : alive k.+1 -> X k.+1 != X k.
Proof.
move=> L; rewrite -subr_eq0 incr scaler_eq0 negb_or gt_eqF ?Al_pos //=.
by apply/eqP => Z; have [_] := pos L; rewrite /En Z dot0l ltxx.
Qed.

Variable xs : 'cV[F]_n.
Hypothesis Hxs : A *m xs = b.

Lemma AE k : A *m (X k - xs) = - R k.
Proof. by rewrite R_true mulmxBr Hxs opprB. Qed.

(** The energy of the error decreases. *)
Lemma energy_S k : alive k.+1 -> energy_error A xs (X k.+1) = energy_error A xs (X k) - Rho k ^+ 2 / En k.
Proof.
move=> L; have [Hr He] := pos L; have [I1 _ _] := invs (alive_le (leqnSn k) L).
have T : X k.+1 - xs = (X k - xs) + Al k *: P k by rewrite XS addrAC.
have D : dot (X k - xs) (A *m P k) = - Rho k by rewrite (dot_sym _ _ SA.1) AE dotNl I1.
rewrite /energy_error T; move: D; move: (X k - xs) => e D.
have D' : dot (P k) (A *m e) = - Rho k by rewrite (dot_sym _ _ SA.1) dotC.
rewrite mulmxDr -scalemxAr !dotDl !dotDr !dotZl !dotZr -/(En k) D D' /Al -addrA; congr (_ + _).
rewrite (divfK (lt0r_neq0 He)) mulrN addrA addrAC -mulrA addNr add0r.
by rewrite expr2 mulrA mulrAC.
Qed.

Lemma energy_decr k : alive k.+1 -> energy_error A xs (X k.+1) < energy_error A xs (X k).
Proof.
by move=> L; rewrite energy_S // ltr_subl_addr ltr_addl; have [H1 H2] := pos L; rewrite divr_gt0 // exprn_gt0.
Qed.

(** Krylov spaces. *)
Local Notation kry := (in_krylov M A r0).
Lemma kryD k u v : kry k u -> kry k v -> kry k (u + v).
Proof.
move=> [c ->] [d ->]; exists (fun i => c i + d i); rewrite -big_split /=.
by apply: eq_bigr => i _; rewrite scalerDl.
Qed.
Lemma kryZ k a u : kry k u -> kry k (a *: u).
Proof. by move=> [c ->]; exists (fun i => a * c i); rewrite scaler_sumr; apply: eq_bigr => i _; rewrite scalerA. Qed.
Lemma kryW k u : kry k u -> kry k.+1 u.
Proof.
move=> [c ->]; exists (fun i => if (i < k)%N then c i else 0); rewrite big_ord_recr /= ltnn scale0r addr0.
by apply: eq_bigr => i _; rewrite ltn_ord.
Qed.
Lemma kry_le k l u : (k <= l)%N -> kry k u -> kry l u.
Proof. by move=> /subnK <-; elim: (l - k)%N => [|d IH] // H; rewrite addSn; apply: kryW; apply: IH. Qed.
Lemma kryMA k u : kry k u -> kry k.+1 (M *m (A *m u)).
Proof.
move=> [c ->]; exists (fun i => if i is j.+1 then c j else 0).
rewrite big_ord_recl /= scale0r add0r !mulmx_sumr.
by apply: eq_bigr => i _; rewrite -!scalemxAr.
Qed.
Lemma kry_P k : kry k.+1 (P k) /\ kry k.+1 (M *m R k).
Proof.
elim: k => [|k [IH1 IH2]].
  by split; exists (fun _ => 1); rewrite big_ord1 scale1r.
have H : kry k.+2 (M *m R k.+1).
  rewrite RS mulmxBr -scalemxAr -scaleNr; apply: kryD; first exact: kryW.
  by apply: kryZ; apply: kryMA.
by split=> //; rewrite PS; apply: kryD => //; apply: kryZ; apply: kryW.
Qed.
Lemma kry_X k : kry k (X k - x0).
Proof.
elim: k => [|k IH]; first by exists (fun _ => 0); rewrite big_ord0 subrr.
rewrite XS addrAC; apply: kryD; first exact: kryW.
by apply: kryZ; have [] := kry_P k.
Qed.

(** A vector orthogonal to the first directions is orthogonal to the Krylov space. *)
Lemma orth_basis i : forall v, alive i -> (forall j, (j <= i)%N -> dot v (P j) = 0) ->
  dot v (iter i (fun w => M *m (A *m w)) (M *m r0)) = 0.
Proof.
elim: i => [|i IH] v L H; first exact: (H 0%N).
rewrite iterS dot_tr SM.1 dot_tr SA.1; apply: IH; first by apply: alive_le L.
move=> j Hj; rewrite -(dot_sym _ _ SA.1) -(dot_sym _ _ SM.1).
have Hal : Al j != 0 by rewrite gt_eqF // Al_pos //; apply: alive_le L.
have AP : A *m P j = (Al j)^-1 *: (R j - R j.+1).
  by rewrite RS opprB addrC subrK scalerA mulVf // scale1r.
rewrite AP -scalemxAr mulmxBr dotZr dotBr !orth_MR ?subrr ?mulr0 // => l Hl; apply: H.
  exact: leq_trans Hl _.
by apply: leq_trans Hl _; apply: leqW.
Qed.
Lemma orth_kry k v w : alive k -> (forall j, (j < k)%N -> dot v (P j) = 0) -> kry k w -> dot v w = 0.
Proof.
move=> L H [c ->]; rewrite (dot_sumr _ (fun i => c i *: iter i (fun w => M *m (A *m w)) (M *m r0))).
apply: big1 => i _; rewrite dotZr orth_basis ?mulr0 //.
  by apply: alive_le L; apply: ltnW.
by move=> j Hj; apply: H; apply: leq_ltn_trans Hj _.
Qed.

Lemma energy_ge0 v : 0 <= dot v (A *m v).
Proof. by case: (v =P 0) => [->|/eqP N]; [rewrite dot0l | apply: ltW; apply: SA.2]. Qed.

Lemma optimal k v : alive k -> kry k v -> energy_error A xs (X k) <= energy_error A xs (x0 + v).
Proof.
move=> L Hv; pose d := x0 + v - X k.
have Hd : kry k d.
  have -> : d = v + (-1) *: (X k - x0) by rewrite /d scaleN1r opprB addrAC addrC addrA.
  by apply: kryD => //; apply: kryZ; apply: kry_X.
have T : x0 + v - xs = (X k - xs) + d by rewrite /d [RHS]addrC addrA subrK.
have [_ I2 _] := invs L.
have D : dot d (A *m (X k - xs)) = 0 by rewrite AE dotNr dotC (orth_kry L I2 Hd) oppr0.
rewrite /energy_error T; clearbody d; move: D; move: (X k - xs) => e D.
have D' : dot e (A *m d) = 0 by rewrite (dot_sym _ _ SA.1) dotC.
rewrite mulmxDr !dotDl !dotDr D D' addr0 add0r.
by rewrite ler_addl energy_ge0.
Qed.

(** After n steps the residual vanishes. *)
Lemma finite k : alive k -> (n <= k)%N -> R k = 0.
Proof.
move=> L Hn; have [_ I2 _] := invs L.
pose Q : 'M[F]_n := \matrix_(i, j) P j i 0.
have colQ : forall j : 'I_n, col j Q = P j.
  by move=> j; apply/matrixP => i l; rewrite (ord1 l) !mxE.
have E : forall i j : 'I_n, (Q^T *m A *m Q) i j = dot (P i) (A *m P j).
  move=> i j; rewrite -mulmxA !mxE /dot; apply: eq_bigr => l _; rewrite !mxE; congr (_ * _).
  by apply: eq_bigr => h _; rewrite !mxE.
have D : Q^T *m A *m Q = diag_mx (\row_j En j).
  apply/matrixP => i j; rewrite E !mxE; case: (i =P j) => [-> // | N]; rewrite mulr0n.
  have Hi : (i < k)%N by apply: leq_trans Hn.
  have Hj : (j < k)%N by apply: leq_trans Hn.
  case: (ltngtP i j) => H.
  - by rewrite (dot_sym _ _ SA.1) dotC (conj_lt H Hj L).
  - by rewrite (conj_lt H Hi L).
  - by case: N; apply: val_inj.
have U : Q^T *m A *m Q \in unitmx.
  rewrite D unitmxE det_diag unitfE; apply/prodf_neq0 => i _; rewrite mxE gt_eqF //.
  by have [_] : 0 < Rho i /\ 0 < En i by apply: pos; apply: alive_le L; apply: leq_trans Hn.
have UQ : Q^T \in unitmx.
  by move: U; rewrite !unitmx_mul => /andP [/andP []].
have Z : Q^T *m R k = 0.
  apply/matrixP => i j; rewrite (ord1 j) !mxE -[RHS](I2 i) ?(leq_trans (ltn_ord i) Hn) //.
  by rewrite /dot; apply: eq_bigr => l _; rewrite !mxE mulrC.
by rewrite -(mulKmx UQ (R k)) Z mulmx0.
Qed.
End Spd.
