(** Proofs about the Newton-Raphson loop. *)

From mathcomp Require Import all_ssreflect all_algebra.
From Verif Require Import CGModel NewtonModel NewtonSpec.
Set Implicit Arguments.
Unset Strict Implicit.
Unset Printing Implicit Defensive.
Import GRing.Theory Num.Theory Order.TTheory.
Local Open Scope ring_scope.

Section Newton.
Variable F : realFieldType.
Variable V : lmodType F.
Variable dotV : V -> V -> F.
Variables (S Mx : Type).
Variable cfg : config F.
Variable sys : system V S Mx.
Variable ls : linear_solver V Mx.
Variable s0 : S.

Local Notation it := (iteration dotV cfg sys ls).

Definition refres (R : seq (option F)) := head None R.

(** Invariant of the loop. *)
Record inv (p : progress V S) : Prop := Inv {
  i_size : size (increments p) = size (residuals p);
  i_state : st p = state_after sys s0 (increments p);
  i_total : total p = sum_of (increments p);
  i_rhs : (1 < newton_iterations cfg)%N \/ increments p = [::] -> rhs_vector p = rhs sys (st p);
  i_R : (1 < newton_iterations cfg)%N \/ increments p = [::] -> R_squared_norm p = norm2 dotV (rhs sys (st p));
  i_R1 : ~~ (1 < newton_iterations cfg)%N -> R_squared_norm p = norm2 dotV (rhs sys s0);
  i_asked : forall k, (k < size (increments p))%N ->
    let s := state_after sys s0 (take k (increments p)) in
    factorize ls k (matrix sys s) /\
    exists f, ((1 < newton_iterations cfg)%N \/ k = 0%N -> f = rhs sys s) /\
      lsolve ls k (matrix sys s) f = Solved (nth None (increments p) k);
  i_res : forall k, (k < size (residuals p))%N ->
    nth None (residuals p) k = norm2 dotV (rhs sys (if (1 < newton_iterations cfg)%N
                                                 then state_after sys s0 (take k.+1 (increments p)) else s0));
  i_none : forall k, (0 < k)%N -> (k <= size (residuals p))%N -> (k < size (residuals p))%N || is_running (stopped p) ->
    ~~ criterion dotV cfg (increments p) (residuals p) (refres (residuals p)) k /\
    ~~ broken dotV cfg (increments p) (residuals p) k;
  i_conv : stopped p = Converged -> (0 < size (residuals p))%N /\
    criterion dotV cfg (increments p) (residuals p) (refres (residuals p)) (size (residuals p)) /\
    ~~ broken dotV cfg (increments p) (residuals p) (size (residuals p));
  i_div : stopped p = Diverged -> (0 < size (residuals p))%N ->
    ~~ criterion dotV cfg (increments p) (residuals p) (refres (residuals p)) (size (residuals p)) \/
    broken dotV cfg (increments p) (residuals p) (size (residuals p));
  i_fail : stopped p = Diverged ->
    ((0 < size (residuals p))%N /\ broken dotV cfg (increments p) (residuals p) (size (residuals p))) \/
    let K := size (residuals p) in
    let A := matrix sys (st p) in
    [\/ pattern_strategy cfg <> NEVER /\ ~~ analyze_pattern ls K A, ~~ factorize ls K A | lsolve ls K A (rhs_vector p) = Failed] }.

Lemma take_rcons_lt (T : Type) (l : seq T) x k : (k <= size l)%N -> take k (rcons l x) = take k l.
Proof. by move=> H; rewrite -cats1 takel_cat. Qed.
Lemma nth_rcons_lt (T : Type) (l : seq T) d x k : (k < size l)%N -> nth d (rcons l x) k = nth d l k.
Proof. by move=> H; rewrite nth_rcons H. Qed.
Lemma head_rcons_gt (T : Type) (l : seq T) d x : (0 < size l)%N -> head d (rcons l x) = head d l.
Proof. by case: l. Qed.

Lemma isnan_norm2 v : isnan (norm2 dotV v) = isnan v.
Proof. by case: v. Qed.

Lemma check_spec incs R k :
  check cfg (nth None R k.-1) (norm2 dotV (nth None incs k.-1)) (norm2 dotV (sum_of (take k incs))) (refres R) =
  if broken dotV cfg incs R k then Diverged
  else if criterion dotV cfg incs R (refres R) k then Converged else Running.
Proof.
rewrite /check /broken /criterion isnan_norm2 -orbA; case: ifP => //= _.
case: ((0 < correction_tolerance_threshold cfg) && _) => //=.
by case: ((0 < residual_tolerance_threshold cfg) && _).
Qed.

Lemma inv_start c : inv (start dotV cfg sys c s0) \/
  stopped (start dotV cfg sys c s0) = Converged /\ increments (start dotV cfg sys c s0) = [::].
Proof.
rewrite /start; case: ifP => _; [by right | left].
split=> //=.
by move=> k; rewrite leqn0 lt0n => /negbTE ->.
Qed.

Lemma inv_iteration p : inv p -> is_running (stopped p) -> inv (it p).
Proof.
move=> I Hrun; rewrite /iteration.
set b := _ && _; set n_it := size (residuals p); set A := matrix sys (st p).
have Ifail already an asm : [\/ pattern_strategy cfg <> NEVER /\ ~~ analyze_pattern ls n_it A, ~~ factorize ls n_it A |
      lsolve ls n_it A (rhs_vector p) = Failed] ->
    inv (Progress (st p) (rhs_vector p) (R_squared_norm p) (total p) (increments p) (residuals p)
                           already an asm Diverged).
  move=> Hf.
  case: I => I1 I2 I3 I4 I5 I6 I7 I8 I9 I10 I11 I12; split=> //=.
  - by move=> k H1 H2 /orP [H3|//]; apply: I9 => //; rewrite H3.
  - by move=> _ H; left; have [] := I9 _ H (leqnn _); first by rewrite Hrun orbT.
  by move=> _; right.
case Eb : b; first by apply: Ifail; move/andP: Eb => [H1 H]; apply: Or31; split=> // E; rewrite E in H1.
case Ef : (~~ factorize ls n_it A); first by apply: Ifail; apply: Or32.
case El : (lsolve ls n_it A (rhs_vector p)) => [|dx]; first by apply: Ifail; apply: Or33.
have Sz := i_size I.
have Et : total p = sum_of (increments p) := i_total I.
split=> /=.
- by rewrite !size_rcons Sz.
- by rewrite /state_after -cats1 foldl_cat /= -/(state_after sys s0 _) -(i_state I).
- by rewrite /sum_of -cats1 foldl_cat /= Et.
- by case=> [->//|]; case: (increments p).
- by case=> [->//|]; case: (increments p).
- by move=> H; rewrite (negbTE H); apply: (i_R1 I).
- move=> k; rewrite size_rcons ltnS => Hk; rewrite take_rcons_lt //.
  move: Hk; rewrite leq_eqVlt => /orP [/eqP -> | Hk]; last by rewrite nth_rcons_lt //; apply: (i_asked I).
  rewrite take_size -(i_state I) nth_rcons ltnn eqxx Sz -/n_it -/A; split; first by rewrite (negbFE Ef).
  exists (rhs_vector p); split=> // H; apply: (i_rhs I); case: H => [H|H]; first by left.
  by right; apply: size0nil; rewrite Sz.
- move=> k; rewrite size_rcons ltnS => Hk.
  move: Hk; rewrite leq_eqVlt => /orP [/eqP -> | Hk]; last first.
    by rewrite nth_rcons_lt // take_rcons_lt ?Sz //; apply: (i_res I).
  rewrite nth_rcons ltnn eqxx take_oversize ?size_rcons ?Sz //.
  case: ifP => H; last by apply: (i_R1 I); rewrite H.
  by rewrite H /state_after -cats1 foldl_cat /= -/(state_after sys s0 _) -(i_state I).
- set R := rcons _ _; set incs := rcons _ _.
  have Ck := check_spec incs R (size (residuals p)).+1.
  have EU : sum_of (take (size (residuals p)).+1 incs) = oadd (total p) dx.
    by rewrite /incs take_oversize ?size_rcons ?Sz // /sum_of -cats1 foldl_cat /= Et.
  rewrite EU /= {1 2}/R {1}/incs !nth_rcons Sz ltnn eqxx in Ck.
  move=> k Hk0; rewrite /R size_rcons -/R => Hk1; rewrite ltnS => Hk2.
  case Ek : (k == (size (residuals p)).+1).
    rewrite (eqP Ek); move: Hk2; rewrite (eqP Ek) ltnn /= -/(refres R) Ck.
    by case: ifP => // _; case: ifP.
  have Hk : (k <= size (residuals p))%N by move: Hk1; rewrite leq_eqVlt Ek.
  have [] := i_none I Hk0 Hk; first by rewrite Hrun orbT.
  have Ht : take k incs = take k (increments p) by rewrite take_rcons_lt // Sz.
  have Hk' : (k.-1 < size (residuals p))%N by case: k Hk0 Hk {Hk1 Hk2 Ek Ht} => //.
  rewrite /criterion /broken Ht /R /incs !nth_rcons_lt ?Sz // /refres head_rcons_gt //.
  exact: leq_ltn_trans Hk'.
- set R := rcons _ _; set incs := rcons _ _.
  have Ck := check_spec incs R (size (residuals p)).+1.
  have EU : sum_of (take (size (residuals p)).+1 incs) = oadd (total p) dx.
    by rewrite /incs take_oversize ?size_rcons ?Sz // /sum_of -cats1 foldl_cat /= Et.
  rewrite EU /= {1 2}/R {1}/incs !nth_rcons Sz ltnn eqxx in Ck.
  by rewrite /R size_rcons -/R -/(refres R) Ck; case: ifP => // Nb; case: ifP.
- set R := rcons _ _; set incs := rcons _ _.
  have Ck := check_spec incs R (size (residuals p)).+1.
  have EU : sum_of (take (size (residuals p)).+1 incs) = oadd (total p) dx.
    by rewrite /incs take_oversize ?size_rcons ?Sz // /sum_of -cats1 foldl_cat /= Et.
  rewrite EU /= {1 2}/R {1}/incs !nth_rcons Sz ltnn eqxx in Ck.
  rewrite /R size_rcons -/R -/(refres R) Ck; case: ifP => Nb; [by right | by case: ifP].
set R := rcons _ _; set incs := rcons _ _.
have Ck := check_spec incs R (size (residuals p)).+1.
have EU : sum_of (take (size (residuals p)).+1 incs) = oadd (total p) dx.
  by rewrite /incs take_oversize ?size_rcons ?Sz // /sum_of -cats1 foldl_cat /= Et.
rewrite EU /= {1 2}/R {1}/incs !nth_rcons Sz ltnn eqxx in Ck.
by rewrite /R size_rcons -/R -/(refres R) Ck; case: ifP => Nb; [by left | by case: ifP].
Qed.

Lemma inv_loop fuel : forall p, inv p -> is_running (stopped p) -> inv (loop dotV cfg sys ls fuel p).
Proof.
elim: fuel => [|k IH] p I H //=.
by case: ifP => H'; [apply: IH => //|]; apply: inv_iteration.
Qed.

(** Number of iterations. *)
Lemma iteration_size p : (size (residuals p) <= size (residuals (it p)) <= (size (residuals p)).+1)%N /\
  (is_running (stopped (it p)) -> size (residuals (it p)) = (size (residuals p)).+1).
Proof.
rewrite /iteration; case: ifP => _ //=; first by rewrite leqnn leqnSn.
case: ifP => _ //=; first by rewrite leqnn leqnSn.
by case: (lsolve _ _ _ _) => [|dx] /=; rewrite ?size_rcons leqnn leqnSn.
Qed.
Lemma loop_size fuel : forall p, is_running (stopped p) ->
  (size (residuals (loop dotV cfg sys ls fuel p)) <= size (residuals p) + fuel)%N /\
  (is_running (stopped (loop dotV cfg sys ls fuel p)) ->
   size (residuals (loop dotV cfg sys ls fuel p)) = (size (residuals p) + fuel)%N).
Proof.
elim: fuel => [|k IH] p H /=; first by rewrite addn0.
have [/andP [H1 H2] H3] := iteration_size p.
case: ifP => H'; last first.
  by rewrite H'; split=> //; apply: leq_trans H2 _; rewrite addnS ltnS leq_addr.
by have := IH _ H'; rewrite (H3 H') addSnnS.
Qed.

(** The calls of analyze_pattern. *)
Definition analysed_once already0 (p : progress V S) : Prop :=
  if already0 then analyses p = [::] /\ already_analyzed p
  else (assemblies p = 0%N /\ analyses p = [::] /\ already_analyzed p = false) \/
       ((0 < assemblies p)%N /\
        ((analyses p = [:: true] /\ already_analyzed p) \/
         (analyses p = [:: false] /\ ~~ already_analyzed p /\ stopped p = Diverged))).

Lemma once_iteration a0 p :
  pattern_strategy cfg = BEGINNING_OF_THE_SIMULATION \/ pattern_strategy cfg = BEGINNING_OF_THE_TIME_STEP ->
  is_running (stopped p) -> analysed_once a0 p -> analysed_once a0 (it p).
Proof.
move=> Hs Hr; rewrite /analysed_once /iteration.
have E : must_analyze (pattern_strategy cfg) (already_analyzed p) = ~~ already_analyzed p by case: Hs => ->.
rewrite E; case: a0.
  by move=> [-> ->] /=; case: ifP => // _; case: (lsolve _ _ _ _).
case=> [[-> [-> ->]]|[Ha [[Han Hal]|[_ [_ Hd]]]]]; last by rewrite Hd in Hr.
  right; case: (analyze_pattern _ _ _) => /=; last by split=> //; right.
  case: ifP => _ /=; first by split=> //; left.
  by case: (lsolve _ _ _ _) => [|dx] /=; split=> //; left.
right; rewrite Hal Han /=; case: ifP => _ /=; first by split=> //; left.
by case: (lsolve _ _ _ _) => [|dx] /=; split=> //; left.
Qed.
Lemma once_loop a0 fuel : forall p,
  pattern_strategy cfg = BEGINNING_OF_THE_SIMULATION \/ pattern_strategy cfg = BEGINNING_OF_THE_TIME_STEP ->
  is_running (stopped p) -> analysed_once a0 p -> analysed_once a0 (loop dotV cfg sys ls fuel p).
Proof.
elim: fuel => [|k IH] p Hs Hr H //=; case: ifP => H'; last exact: once_iteration.
by apply: IH => //; apply: once_iteration.
Qed.
Lemma never_loop fuel : forall p, pattern_strategy cfg = NEVER -> analyses p = [::] ->
  analyses (loop dotV cfg sys ls fuel p) = [::].
Proof.
have st p : pattern_strategy cfg = NEVER -> analyses p = [::] -> analyses (it p) = [::].
  move=> E H; rewrite /iteration E /=; case: ifP => // _; by case: (lsolve _ _ _ _).
by elim: fuel => [|k IH] p E H //=; case: ifP => _; [apply: IH => //|]; apply: st.
Qed.
Lemma always_loop fuel : forall p, pattern_strategy cfg = ALWAYS -> size (analyses p) = assemblies p ->
  size (analyses (loop dotV cfg sys ls fuel p)) = assemblies (loop dotV cfg sys ls fuel p).
Proof.
have st p : pattern_strategy cfg = ALWAYS -> size (analyses p) = assemblies p -> size (analyses (it p)) = assemblies (it p).
  move=> E H; rewrite /iteration E /=; case: ifP => _ /=; first by rewrite size_rcons H.
  by case: ifP => _ /=; [|case: (lsolve _ _ _ _) => [|dx] /=]; rewrite size_rcons H.
by elim: fuel => [|k IH] p E H //=; case: ifP => _; [apply: IH => //|]; apply: st.
Qed.

(** Number of matrices assembled: the completed iterations, and the one that failed. *)
Lemma assemblies_loop fuel : forall p, is_running (stopped p) -> assemblies p = size (residuals p) ->
  let q := loop dotV cfg sys ls fuel p in
  (size (residuals q) <= assemblies q <= (size (residuals q)).+1)%N /\ ((0 < fuel)%N -> (0 < assemblies q)%N).
Proof.
have st p : assemblies p = size (residuals p) ->
    (size (residuals (it p)) <= assemblies (it p) <= (size (residuals (it p))).+1)%N /\ (0 < assemblies (it p))%N /\
    (is_running (stopped (it p)) -> assemblies (it p) = size (residuals (it p))).
  move=> H; rewrite /iteration; case: ifP => _ /=; first by rewrite H leqnn leqnSn.
  case: ifP => _ /=; first by rewrite H leqnn leqnSn.
  by case: (lsolve _ _ _ _) => [|dx] /=; rewrite ?size_rcons H ?leqnn ?leqnSn.
elim: fuel => [|k IH] p Hr H; first by rewrite /= H leqnn leqnSn.
move=> q; rewrite /q /=; have [H1 [H2 H3]] := st p H; case: ifP => H'; last by rewrite H1.
have [H4 H5] := IH _ H' (H3 H'); split=> // _.
case: k {IH q H4} H5 => [|k] H5 //; exact: H5.
Qed.
End Newton.
