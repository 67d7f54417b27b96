(** Invariant of the loop of the legacy static solver. *)

From mathcomp Require Import all_ssreflect all_algebra.
From Verif Require Import CGModel NewtonModel NewtonSpec NewtonProofs LegacyModel LegacySpec.
Set Implicit Arguments.
Unset Strict Implicit.
Unset Printing Implicit Defensive.
Import GRing.Theory Num.Theory Order.TTheory.
Local Open Scope ring_scope.

Section Legacy.
Variable F : realFieldType.
Variable V : lmodType F.
Variable dotV : V -> V -> F.
Variables (S Mx : Type).
Variable cfg : legacy_config F.
Variable sys : system V S Mx.
Variable ls : legacy_solver V Mx.
Variable s0 : S.
Variable dx0 : option V.
Local Notation it := (legacy_iteration dotV cfg sys ls).
Local Notation crit p := (legacy_criterion dotV cfg (l_increments p) (l_residuals p) (head None (l_residuals p))).
Local Notation bad p := (legacy_broken dotV cfg (l_increments p) (l_residuals p)).

Definition guess (incs : seq (option V)) k : option V :=
  if warm_start cfg then (if k is k'.+1 then nth None incs k' else dx0) else Some 0.

Record linv (p : legacy_progress V S) : Prop := LInv {
  j_size : size (l_increments p) = size (l_residuals p);
  j_state : l_st p = state_after sys s0 (l_increments p);
  j_total : l_U p = sum_of (l_increments p);
  j_rhs : l_force p = rhs sys (l_st p);
  j_dx : l_dx p = guess (l_increments p) (size (l_residuals p));
  j_Rn : (0 < size (l_residuals p))%N -> l_Rn p = nth None (l_residuals p) (size (l_residuals p)).-1;
  j_asked : forall k, (k < size (l_increments p))%N ->
    let s := state_after sys s0 (take k (l_increments p)) in
    nth None (l_increments p) k =
      (if ls k (matrix sys s) (rhs sys s) (guess (l_increments p) k) is Solved dx then dx else guess (l_increments p) k);
  j_res : forall k, (k < size (l_residuals p))%N ->
    nth None (l_residuals p) k = norm2 dotV (rhs sys (state_after sys s0 (take k.+1 (l_increments p))));
  j_none : forall k, (0 < k)%N -> (k <= size (l_residuals p))%N -> (k < size (l_residuals p))%N || is_running (l_stopped p) ->
    [/\ ~~ crit p k, ~~ bad p k & ~~ legacy_growing cfg (l_residuals p) k];
  j_conv : l_stopped p = Converged -> [/\ (0 < size (l_residuals p))%N, crit p (size (l_residuals p)) & ~~ bad p (size (l_residuals p))];
  j_div : l_stopped p = Diverged -> (0 < size (l_residuals p))%N /\
    (bad p (size (l_residuals p)) \/ ~~ crit p (size (l_residuals p)) /\ legacy_growing cfg (l_residuals p) (size (l_residuals p))) }.

Lemma legacy_check_spec incs R k Rn : (1 < k)%N = false \/ Rn = nth None R k.-2 ->
  legacy_check cfg k (nth None R k.-1) (norm2 dotV (nth None incs k.-1)) (norm2 dotV (sum_of (take k incs))) (head None R) Rn =
  if legacy_broken dotV cfg incs R k then Diverged
  else if legacy_criterion dotV cfg incs R (head None R) k then Converged
  else if legacy_growing cfg R k then Diverged else Running.
Proof.
move=> H; rewrite /legacy_check /legacy_broken /legacy_criterion isnan_norm2 -orbA; case: ifP => //= _.
case: ((0 < l_correction_tolerance_threshold cfg) && _) => //=.
case: ((0 < l_residual_tolerance_threshold cfg) && _) => //=.
by rewrite /legacy_growing; case: H => [->|->]; [rewrite !andbF | rewrite (andbC (olt _ _))].
Qed.

Lemma linv_start : is_running (l_stopped (legacy_start dotV cfg sys dx0 s0)) -> linv (legacy_start dotV cfg sys dx0 s0).
Proof.
rewrite /legacy_start /=; case: ifP => // _ _; split=> //=.
by move=> k; rewrite leqn0 lt0n => /negbTE ->.
Qed.

Lemma linv_iteration p : linv p -> is_running (l_stopped p) -> linv (it p).
Proof.
move=> I Hrun; rewrite /legacy_iteration; set n_it := size (l_residuals p); set A := matrix sys (l_st p).
set dx := match _ with Failed => _ | Solved _ => _ end; set s := propagate _ _ _; set R1 := norm2 _ (rhs _ _).
have Sz := j_size I; have Et := j_total I.
set incs := rcons (l_increments p) dx; set R := rcons (l_residuals p) R1.
have Es : s = state_after sys s0 incs by rewrite /incs /state_after -cats1 foldl_cat /= -/(state_after sys s0 _) -(j_state I).
have EU : sum_of (take n_it.+1 incs) = oadd (l_U p) dx.
  by rewrite /incs take_oversize ?size_rcons ?Sz // /sum_of -cats1 foldl_cat /= Et.
have SR : size R = n_it.+1 by rewrite /R size_rcons.
have Lst : nth None R n_it = R1 by rewrite /R nth_rcons ltnn eqxx.
have Lsi : nth None incs n_it = dx by rewrite /incs nth_rcons Sz ltnn eqxx.
have Ck := @legacy_check_spec incs R n_it.+1 (l_Rn p).
rewrite EU /= Lst Lsi in Ck.
have Pre : (1 < n_it.+1)%N = false \/ l_Rn p = nth None R n_it.-1.
  case E : n_it => [|n]; [by left | right]. 
  rewrite (j_Rn I) -/n_it E //= /R nth_rcons_lt // -/n_it E //.
move/(_ Pre): Ck => Ck.
have Gs k : (k <= n_it)%N -> guess incs k = guess (l_increments p) k.
  by rewrite /guess; case: ifP => // _; case: k => // k Hk; rewrite /incs nth_rcons_lt // Sz.
split=> /=; rewrite -/R -/incs.
- by rewrite !size_rcons Sz.
- exact: Es.
- by rewrite /sum_of /incs -cats1 foldl_cat /= Et.
- by [].
- by rewrite SR /guess; case: ifP => // _; rewrite Lsi.
- by rewrite SR /= Lst.
- move=> k; rewrite /incs size_rcons ltnS -/incs => Hk; have Hk' : (k <= n_it)%N by rewrite /n_it -Sz.
  rewrite Gs //; move: Hk; rewrite leq_eqVlt => /orP [/eqP Ek | Hk]; last first.
    by rewrite /incs nth_rcons_lt // take_rcons_lt ?(ltnW Hk) //; apply: (j_asked I).
  have E : take k incs = l_increments p by rewrite /incs Ek -cats1 take_size_cat.
  have Ekn : k = n_it by rewrite Ek.
  rewrite E -(j_state I) -/A -(j_rhs I) Ekn Lsi -(j_dx I) /dx.
  by case: (ls _ _ _ _).
- move=> k; rewrite SR ltnS leq_eqVlt => /orP [/eqP -> | Hk].
    by rewrite Lst /incs take_oversize ?size_rcons ?Sz // -/incs -Es.
  by rewrite /R nth_rcons_lt // /incs take_rcons_lt ?Sz //; apply: (j_res I).
- move=> k Hk0; rewrite SR => Hk1; rewrite ltnS => Hk2.
  case Ek : (k == n_it.+1).
    move: Hk2; rewrite (eqP Ek) ltnn /= Ck.
    by case: ifP => // Hb; case: ifP => // Hc; case: ifP.
  have Hk : (k <= n_it)%N by move: Hk1; rewrite leq_eqVlt Ek.
  have Hp := j_none I Hk0 Hk; rewrite Hrun orbT in Hp; move: (Hp isT).
  have Ht : take k incs = take k (l_increments p) by rewrite /incs take_rcons_lt // Sz.
  have Hk' : (k.-1 < n_it)%N by case: k Hk0 Hk {Hk1 Hk2 Ek Ht Hp}.
  have Hk'' : (k.-2 < n_it)%N by apply: leq_ltn_trans Hk'; apply: leq_pred.
  rewrite /legacy_criterion /legacy_broken /legacy_growing Ht /R /incs !nth_rcons_lt ?Sz // head_rcons_gt //.
  exact: leq_ltn_trans Hk'.
- rewrite SR Ck.
  by case: ifP => // Hb; case: ifP => // Hc; case: ifP.
rewrite SR Ck.
case: ifP => Hb; first by split=> //; left.
by case: ifP => Hc //; case: ifP => Hg // _; split=> //; right.
Qed.

Lemma linv_loop fuel : forall p, linv p -> is_running (l_stopped p) -> linv (legacy_loop dotV cfg sys ls fuel p).
Proof.
elim: fuel => [|k IH] p I H //=.
by case: ifP => H'; [apply: IH => //|]; apply: linv_iteration.
Qed.
Lemma legacy_loop_size fuel : forall p, is_running (l_stopped p) ->
  (size (l_residuals (legacy_loop dotV cfg sys ls fuel p)) <= size (l_residuals p) + fuel)%N /\
  (is_running (l_stopped (legacy_loop dotV cfg sys ls fuel p)) ->
   size (l_residuals (legacy_loop dotV cfg sys ls fuel p)) = (size (l_residuals p) + fuel)%N).
Proof.
elim: fuel => [|k IH] p H; first by rewrite /= addn0.
have E : size (l_residuals (it p)) = (size (l_residuals p)).+1 by rewrite /= size_rcons.
have -> : legacy_loop dotV cfg sys ls k.+1 p = if is_running (l_stopped (it p)) then legacy_loop dotV cfg sys ls k (it p) else it p by [].
case: ifP => H'; last by rewrite H' E; split=> //; rewrite addnS ltnS leq_addr.
by have := IH _ H'; rewrite E addSnnS.
Qed.
End Legacy.
