(** Properties of the Newton-Raphson loop. *)

From mathcomp Require Import all_ssreflect all_algebra.
From Verif Require Import CGModel NewtonModel NewtonSpec NewtonProofs.
Set Implicit Arguments.
Unset Strict Implicit.
Unset Printing Implicit Defensive.
Import GRing.Theory Num.Theory Order.TTheory.
Local Open Scope ring_scope.

Lemma progress_cases (F : realFieldType) (V : lmodType F) (dotV : V -> V -> F) (S Mx : Type) cfg
    (sys : system V S Mx) ls c s :
  let p := solve_progress dotV cfg sys ls c s in
  (stopped p = Converged /\ p = start dotV cfg sys c s) \/ inv dotV cfg sys ls s p.
Proof.
move=> p; rewrite /p /solve_progress.
case: (inv_start dotV cfg sys ls s c) => [I|[E _]].
  by case: ifP => H; right => //; apply: inv_loop.
by left; move: E; set q := start _ _ _ _ _ => E; rewrite E.
Qed.

(** C47.  One call of solve.
    At most newton_iterations iterations are completed; one squared residual and one increment per completed iteration.
    The k-th increment is the answer of the linear solver for the matrix and the right-hand side at the k-th state, and
    the final state is the initial one after all the increments. *)
Theorem C47_iterations :
  forall (F : realFieldType) (V : lmodType F) (dotV : V -> V -> F) (S Mx : Type) cfg (sys : system V S Mx) ls c s,
    let p := solve_progress dotV cfg sys ls c s in
    let K := size (p_squared_residuals (solve dotV cfg sys (Some ls) c s).2) in
    let s_ k := state_after sys s (take k (increments p)) in
    [/\ (K <= newton_iterations cfg)%N,
        size (increments p) = K,
        (solve dotV cfg sys (Some ls) c s).1 = s_ K &
        forall k, (k < K)%N ->
          factorize ls k (matrix sys (s_ k)) /\
          lsolve ls k (matrix sys (s_ k)) (rhs sys (s_ k)) = Solved (nth None (increments p) k)].
Proof.
move=> F V dotV S Mx cfg sys ls c s p K s_; rewrite /K /= -/p.
have HK : (size (residuals p) <= newton_iterations cfg)%N.
  rewrite /p /solve_progress; case: ifP => H //.
  by have [] := loop_size dotV cfg sys ls (newton_iterations cfg) H.
case: (progress_cases dotV cfg sys ls c s) => [[_ E]|I].
  by rewrite -/p in E; rewrite /s_ E.
rewrite -/p in I *; have Sz := i_size I; split=> //.
  by rewrite /s_ -Sz take_size; apply: (i_state I).
move=> k; rewrite -Sz => Hk; have [H1 [f [H2 H3]]] := i_asked I Hk; split=> //.
rewrite -H2 //; case N : (1 < newton_iterations cfg)%N; [by left | right].
move: Hk; rewrite Sz => Hk; have := leq_trans Hk HK; move: N; rewrite ltnNge => /negbFE N /leq_trans /(_ N).
by case: k {H1 H2 H3 Hk}.
Qed.
Print Assumptions C47_iterations.

(** With more than one iteration allowed, the recorded squared residuals are those of the states reached. *)
Theorem C47_recorded_residuals_partial :
  forall (F : realFieldType) (V : lmodType F) (dotV : V -> V -> F) (S Mx : Type) cfg (sys : system V S Mx) ls c s,
    (1 < newton_iterations cfg)%N ->
    let p := solve_progress dotV cfg sys ls c s in
    let o := (solve dotV cfg sys (Some ls) c s).2 in
    let s_ k := state_after sys s (take k (increments p)) in
    p_squared_initial_residual o = norm2 dotV (rhs sys s) /\
    forall k, (k < size (p_squared_residuals o))%N ->
      nth None (p_squared_residuals o) k = norm2 dotV (rhs sys (s_ k.+1)).
Proof.
move=> F V dotV S Mx cfg sys ls c s N p o s_; split=> // k; rewrite /o /=.
case: (progress_cases dotV cfg sys ls c s) => [[_ ->] //|I] Hk.
by rewrite (i_res I Hk) N.
Qed.
Print Assumptions C47_recorded_residuals_partial.

(** The flag.  It is set exactly when the residual is below the absolute threshold before any iteration, or when one of
    the configured criteria holds at the last iterate, without NaN and without a total increment below EPSILON.  When it
    is not set, either a step of the linear solver failed, or the last iteration gave NaN or a negligible total increment,
    or all the iterations were done.  In all cases no criterion held at an earlier iterate.
    (The reference of the relative criterion is the squared residual of the first iteration, see C48.) *)
Theorem C47_flag :
  forall (F : realFieldType) (V : lmodType F) (dotV : V -> V -> F) (S Mx : Type) cfg (sys : system V S Mx) ls c s,
    let p := solve_progress dotV cfg sys ls c s in
    let o := (solve dotV cfg sys (Some ls) c s).2 in
    let R := p_squared_residuals o in
    let K := size R in
    let crit := criterion dotV cfg (increments p) R (head None R) in
    let bad := broken dotV cfg (increments p) R in
    let a := absolute_residual_tolerance_threshold cfg in
    let at_rest := (0 < a) && ole (norm2 dotV (rhs sys s)) (Some (a * a)) in
    [/\ d_converged o = at_rest || [&& (0 < K)%N, crit K & ~~ bad K],
        at_rest -> K = 0%N,
        forall k, (0 < k)%N -> (k < K)%N -> ~~ crit k /\ ~~ bad k &
        ~~ d_converged o -> (K < newton_iterations cfg)%N ->
          ((0 < K)%N /\ bad K) \/
          let s_K := state_after sys s (increments p) in
          let A := matrix sys s_K in
          [\/ pattern_strategy cfg <> NEVER /\ ~~ analyze_pattern ls K A, ~~ factorize ls K A | lsolve ls K A (rhs sys s_K) = Failed]].
Proof.
move=> F V dotV S Mx cfg sys ls c s p o R K crit bad a at_rest.
have Ep : p = if at_rest then start dotV cfg sys c s
              else loop dotV cfg sys ls (newton_iterations cfg) (start dotV cfg sys c s).
  have Er : is_running (stopped (start dotV cfg sys c s)) = ~~ at_rest by rewrite /start /= -/a -/at_rest; case: (at_rest).
  by rewrite /p /solve_progress Er; case: (at_rest).
case Ea : at_rest.
  have E : p = start dotV cfg sys c s by rewrite Ep Ea.
  rewrite /K /R /o /= -/p E /=; rewrite -/a -/at_rest Ea /=; split=> //.
have [[C E]|I] := progress_cases dotV cfg sys ls c s.
  by exfalso; move: C; rewrite E /start /= -/a -/at_rest Ea.
rewrite -/p in I; split=> //.
- rewrite /d_converged /o /= -/p; case Es : (stopped p) => //=.
  + apply/esym/negbTE; rewrite !negb_and negbK; case: (posnP K) => [->//|K0].
    have [] := i_none I K0 (leqnn _); first by rewrite Es orbT.
    by rewrite -/R -/K /crit /refres => /negbTE ->.
  + by have [H1 [H2 H3]] := i_conv I Es; rewrite H1 /crit H2 H3.
  + apply/esym/negbTE; rewrite !negb_and negbK; case: (posnP K) => [->//|K0].
    by case: (i_div I Es K0) => [/negbTE|]; rewrite -/R -/K /crit /bad /refres => ->; rewrite ?orbT.
- move=> k H1 H2; apply: (i_none I) => //; first by apply: ltnW.
  by rewrite H2.
move=> Nc HK.
have Hr : is_running (stopped (start dotV cfg sys c s)) by rewrite /start /= -/a -/at_rest Ea.
have [_ H] := loop_size dotV cfg sys ls (newton_iterations cfg) Hr.
have Hd : stopped p = Diverged.
  case Es : (stopped p) => //; last by move: Nc; rewrite /o /= -/p Es.
  by move: HK; rewrite /K /R /o /= -/p Ep Ea H ?ltnn //; rewrite Ep Ea in Es; rewrite Es.
case: (i_fail I Hd) => [B|L]; [by left | right].
rewrite -(i_state I) /=; move: L; rewrite -/R -/K (i_rhs I) //.
case N : (1 < newton_iterations cfg)%N; [by left | right; apply: size0nil; rewrite (i_size I)].
apply/eqP; rewrite -leqn0 -ltnS; apply: leq_trans HK _; by rewrite leqNgt N.
Qed.
Print Assumptions C47_flag.

Lemma oltNge (F : realFieldType) (a : option F) (c : F) : ole (Some 0) a -> c <= 1 -> olt a (oscale c a) = false.
Proof.
case: a => [a|] //= Ha Hc; apply/negbTE; rewrite -leNgt.
by rewrite -[X in _ <= X]mul1r ler_wpmul2r.
Qed.
Lemma sq_le1 (F : realFieldType) (c : F) : 0 < c -> c <= 1 -> c * c <= 1.
Proof. by move=> H0 H1; rewrite -[1]mul1r ler_pmul // ltW. Qed.

(** The default number of iterations is 1.  Then the residual is not computed again: the one recorded is that of the
    initial state, and the flag is set only if the initial state is already at rest: an iteration that reaches
    equilibrium exactly is not reported as converged (thresholds at most 1). *)
Theorem C47_single_iteration_refuted :
  forall (F : realFieldType) (V : lmodType F) (dotV : V -> V -> F) (S Mx : Type) cfg (sys : system V S Mx) ls c s,
    (forall v, 0 <= dotV v v) ->
    newton_iterations cfg = 1%N ->
    correction_tolerance_threshold cfg <= 1 -> residual_tolerance_threshold cfg <= 1 ->
    let o := (solve dotV cfg sys (Some ls) c s).2 in
    let a := absolute_residual_tolerance_threshold cfg in
    d_converged o = (0 < a) && ole (norm2 dotV (rhs sys s)) (Some (a * a)) /\
    (p_squared_residuals o = [::] \/ p_squared_residuals o = [:: norm2 dotV (rhs sys s)]).
Proof.
move=> F V dotV S Mx cfg sys ls c s Hpos H1 Hc Hr o a.
have pos v : isnan v \/ ole (Some 0) (norm2 dotV v) by case: v => [v|]; [right; apply: Hpos | left].
have [F1 F2 F3 F4] := C47_flag dotV cfg sys ls c s; have [I1 I2 I3 I4] := C47_iterations dotV cfg sys ls c s.
rewrite -/o H1 in F1 F2 F3 F4 I1 I2 I3 I4.
have HR : p_squared_residuals o = [::] \/ p_squared_residuals o = [:: norm2 dotV (rhs sys s)].
  case: (progress_cases dotV cfg sys ls c s) => [[_ E]|I]; first by left; rewrite /o /= E.
  move: I1; rewrite /o /=; case E : (residuals _) => [|r [|r' l]] // _; [by left | right].
  by have := i_res I (k := 0); rewrite E H1 /= => ->.
split=> //; rewrite F1 -/a; set at_rest := _ && _; case Ea : at_rest => //=.
case: HR => HR; move: (HR); rewrite {1}/o /= => HR'; rewrite HR' //=; rewrite HR in I2.
case Ei : (increments _) I2 => [|dx [|]] // _.
apply/negP => /andP [Hcrit Hbad]; move: Hbad; rewrite /broken /= !negb_or => /andP [Hn /andP [Hd Hu]].
move: Hcrit; rewrite /criterion /= -/a; case/or3P => [/andP [C0 C]|/andP [C0 C]|/andP [C0 C]].
- case: dx Hd {Ei Hu} C => [dx|] //= _; rewrite add0r.
  have := @oltNge F (Some (dotV dx dx)) _ (Hpos dx) (sq_le1 C0 Hc); by rewrite /= => ->.
- case: (pos (rhs sys s)) => [N|P]; first by move: Hn; case: (rhs sys s) N.
  by rewrite (oltNge P (sq_le1 C0 Hr)) in C.
move: Ea; rewrite /at_rest C0 /=; move: C; case: (norm2 _ _) => [r|] //= C.
by rewrite (ltW C).
Qed.
Print Assumptions C47_single_iteration_refuted.

(** C48.  It does not hold: the residual of reference is the one after the first iteration.  So (threshold at most 1) the
    relative criterion never holds after the first iteration, however small the residual has become ... *)
Theorem C48_first_iteration_refuted :
  forall (F : realFieldType) (V : lmodType F) (dotV : V -> V -> F) (S Mx : Type) cfg (sys : system V S Mx) ls c s,
    (forall v, 0 <= dotV v v) ->
    residual_tolerance_threshold cfg <= 1 -> correction_tolerance_threshold cfg <= 1 ->
    absolute_residual_tolerance_threshold cfg <= 0 ->
    let o := (solve dotV cfg sys (Some ls) c s).2 in
    d_converged o -> (1 < size (p_squared_residuals o))%N.
Proof.
move=> F V dotV S Mx cfg sys ls c s Hpos Hr Hc Ha o.
have [F1 F2 F3 F4] := C47_flag dotV cfg sys ls c s; have [I1 I2 I3 I4] := C47_iterations dotV cfg sys ls c s.
rewrite -/o in F1 F2 F3 F4 I1 I2 I3 I4.
have Na : 0 < absolute_residual_tolerance_threshold cfg = false by rewrite ltNge Ha.
rewrite F1 Na andFb orFb => /and3P [K0 Cr Bd].
have Hres : forall k, (k < size (p_squared_residuals o))%N ->
    isnan (nth None (p_squared_residuals o) k) \/ ole (Some 0) (nth None (p_squared_residuals o) k).
  case: (progress_cases dotV cfg sys ls c s) => [[_ E]|I]; first by rewrite /o /= E.
  move=> k Hk; rewrite /o /= (i_res I Hk); set v := rhs _ _.
  by case: v => [v|]; [right; apply: Hpos | left].
case ER : (p_squared_residuals o) K0 => [|r [|r' l]] // _; exfalso.
rewrite ER /= in Cr Bd I2.
case Ei : (increments _) I2 Cr Bd => [|dx [|]] // _ Cr Bd; move: Bd; rewrite /broken /= !negb_or => /andP [Hn /andP [Hd Hu]].
move: Cr; rewrite /criterion /= Na; case/or3P => [/andP [C0 C]|/andP [C0 C]|//].
- case: dx Hd {Ei Hu} C => [dx|] //= _; rewrite add0r.
  have := @oltNge F (Some (dotV dx dx)) _ (Hpos dx) (sq_le1 C0 Hc); by rewrite /= => ->.
have := Hres 0%N; rewrite ER /= => /(_ isT) [N|P]; first by rewrite N in Hn.
by rewrite (oltNge P (sq_le1 C0 Hr)) in C.
Qed.
Print Assumptions C48_first_iteration_refuted.

(** ... and two concrete runs with rational numbers, one increment of 1 per iteration, only the relative criterion, with a
    threshold of 1/10. *)
Definition run_config (m : nat) : config rat_realFieldType :=
  @Config rat_realFieldType 0 m (-1) (1 / 10%:R) (-1) BEGINNING_OF_THE_TIME_STEP.
Definition run_system (r : seq rat) : system [lmodType rat of rat^o] nat unit :=
  @System _ [lmodType rat of rat^o] nat unit (fun k => Some (nth 0 r k : rat^o)) (fun _ => tt) (fun k _ => k.+1).
Definition run_solver : linear_solver [lmodType rat of rat^o] unit :=
  @LinearSolver _ [lmodType rat of rat^o] unit (fun _ _ => true) (fun _ _ => true) (fun _ _ _ => Solved (Some (1 : rat^o))).
Definition rdot (x y : [lmodType rat of rat^o]) : rat := (x : rat) * (y : rat).
Definition run_component : component rat_realFieldType := Component false false [::] None.
Definition run (m : nat) (r : seq rat) : nat * component rat_realFieldType :=
  solve rdot (run_config m) (run_system r) (Some run_solver) run_component 0%N.

(** Residuals 1, 100, 5: reported as converged, although 5 is larger than the initial residual. *)
Theorem C48_reported_refuted :
  let o := (run 10 [:: 1; 100%:R; 5%:R]).2 in
  d_converged o /\ p_squared_initial_residual o = Some 1 /\ last None (p_squared_residuals o) = Some 25%:R.
Proof. by vm_compute. Qed.
Print Assumptions C48_reported_refuted.

(** Residuals 1, 1/100, 1/100: divided by 100, but never reported as converged. *)
Theorem C48_not_reported_refuted :
  let o := (run 2 [:: 1; 1 / 100%:R; 1 / 100%:R]).2 in
  ~~ d_converged o /\ p_squared_initial_residual o = Some 1 /\
  p_squared_residuals o = [:: Some (1 / 10000%:R); Some (1 / 10000%:R)].
Proof. by vm_compute. Qed.
Print Assumptions C48_not_reported_refuted.

(** C49.  The calls of analyze_pattern, over any sequence of solves and resets, whatever the linear solver answers.
    For each solve, [history] gives the answers of analyze_pattern and the number of matrices assembled (one per iteration
    begun). *)
Lemma history_all (F : realFieldType) (V : lmodType F) (dotV : V -> V -> F) (S Mx : Type) cfg (Q : seq bool * nat -> Prop) :
  (forall (sys : system V S Mx) ls c s, let p := solve_progress dotV cfg sys ls c s in Q (analyses p, assemblies p)) ->
  forall calls c i, (i < size (@history F V dotV S Mx cfg c calls).1)%N ->
    Q (nth ([::], 0%N) (history dotV cfg c calls).1 i).
Proof.
move=> H; elim=> [|[|sys ls s] calls IH] c i //=; first exact: IH.
case: i => [|i] Hi /=; first exact: H.
exact: IH.
Qed.

Theorem C49_never_always_time_step :
  forall (F : realFieldType) (V : lmodType F) (dotV : V -> V -> F) (S Mx : Type) cfg c (calls : seq (call V S Mx)),
    let h := (history dotV cfg c calls).1 in
    forall i, (i < size h)%N ->
      size (nth ([::], 0%N) h i).1 =
      match pattern_strategy cfg with
      | NEVER => 0%N
      | ALWAYS => (nth ([::], 0%N) h i).2
      | BEGINNING_OF_THE_TIME_STEP => (0 < (nth ([::], 0%N) h i).2)%N : nat
      | BEGINNING_OF_THE_SIMULATION => size (nth ([::], 0%N) h i).1
      end.
Proof.
move=> F V dotV S Mx cfg c calls /= i Hi.
pose Q := fun e : seq bool * nat => size e.1 =
      match pattern_strategy cfg with
      | NEVER => 0%N
      | ALWAYS => e.2
      | BEGINNING_OF_THE_TIME_STEP => (0 < e.2)%N : nat
      | BEGINNING_OF_THE_SIMULATION => size e.1
      end.
apply: (@history_all F V dotV S Mx cfg Q) => // {c calls i Hi} sys ls c s /=; rewrite /Q /=.
case Es : (pattern_strategy cfg) => //.
- rewrite /solve_progress; case: ifP => _ //; by rewrite never_loop.
- have : analysed_once false (solve_progress dotV cfg sys ls c s).
    rewrite /solve_progress; case: ifP => Hr; last by left; rewrite /start Es.
    by apply: once_loop => //; [right | left; rewrite /start Es].
  by case=> [[-> [-> _]]|[-> [[-> _]|[-> _]]]].
rewrite /solve_progress; case: ifP => _ //; by rewrite always_loop.
Qed.
Print Assumptions C49_never_always_time_step.

(** A matrix is assembled for each completed iteration, and possibly for one that fails; none only when the state is at
    rest (below the absolute threshold) or no iteration is allowed. *)
Theorem C49_assemblies :
  forall (F : realFieldType) (V : lmodType F) (dotV : V -> V -> F) (S Mx : Type) cfg (sys : system V S Mx) ls c s,
    let p := solve_progress dotV cfg sys ls c s in
    let K := size (p_squared_residuals (solve dotV cfg sys (Some ls) c s).2) in
    let a := absolute_residual_tolerance_threshold cfg in
    let at_rest := (0 < a) && ole (norm2 dotV (rhs sys s)) (Some (a * a)) in
    (K <= assemblies p <= K.+1)%N /\ (0 < assemblies p)%N = ~~ at_rest && (0 < newton_iterations cfg)%N.
Proof.
move=> F V dotV S Mx cfg sys ls c s p K a at_rest; rewrite /K /= /p /solve_progress.
have -> : is_running (stopped (start dotV cfg sys c s)) = ~~ at_rest.
  by rewrite /start /= -/a -/at_rest; case: (at_rest).
case Ea : at_rest => //=.
have Hr : is_running (stopped (start dotV cfg sys c s)) by rewrite /start /= -/a -/at_rest Ea.
have [H1 H2] := assemblies_loop dotV cfg sys ls (newton_iterations cfg) Hr erefl; split=> //.
case: (newton_iterations cfg) {H1} H2 => [|m] //= H2; exact: H2.
Qed.
Print Assumptions C49_assemblies.

(** At the beginning of the simulation: after a reset (or the initialisation, which clears the same flag), in any sequence
    of solves, the pattern is analysed once in each solve that assembles a matrix, until an analysis succeeds, and never
    again until the next reset. *)
Theorem C49_simulation :
  forall (F : realFieldType) (V : lmodType F) (dotV : V -> V -> F) (S Mx : Type) cfg c (before after : seq (call V S Mx)),
    pattern_strategy cfg = BEGINNING_OF_THE_SIMULATION ->
    all (fun x => if x is Reset then false else true) after ->
    let c' := (history dotV cfg c before).2 in
    let h := (history dotV cfg c' (Reset :: after)).1 in
    (history dotV cfg c (before ++ Reset :: after)).1 = (history dotV cfg c before).1 ++ h /\
    size h = size after /\
    forall i, (i < size h)%N ->
      size (nth ([::], 0%N) h i).1 =
      (if has (fun e => true \in e.1) (take i h) then 0 else 0 < (nth ([::], 0%N) h i).2)%N.
Proof.
move=> F V dotV S Mx cfg c before after Es Hall c' h; split; last first.
  rewrite /h /=; move: (reset c') (erefl : has_already_analyzed_the_pattern (reset c') = false) => c0 Hc0.
  have G : forall calls c1, all (fun x : call V S Mx => if x is Reset then false else true) calls ->
      let h := (history dotV cfg c1 calls).1 in
      size h = size calls /\
      forall i, (i < size h)%N -> size (nth ([::], 0%N) h i).1 =
        (if has_already_analyzed_the_pattern c1 || has (fun e => true \in e.1) (take i h) then 0
         else 0 < (nth ([::], 0%N) h i).2)%N.
    elim=> [|[|sys ls s] calls IH] c1 //= Ha.
    set p := solve_progress _ _ _ _ _ _; set c2 := Component _ _ _ _.
    have [IH1 IH2] := IH c2 Ha; split; first by rewrite IH1.
    have once : analysed_once (has_already_analyzed_the_pattern c1) p.
      rewrite /p /solve_progress; case: ifP => Hr; last first.
        by rewrite /analysed_once /start Es /=; case: (has_already_analyzed_the_pattern c1); [split | left].
      apply: once_loop => //; first by left.
      by rewrite /analysed_once /start Es /=; case: (has_already_analyzed_the_pattern c1); [split | left].
    have Ec2 : has_already_analyzed_the_pattern c2 = has_already_analyzed_the_pattern c1 || (true \in analyses p).
      rewrite /c2 /=; move: once; rewrite /analysed_once; case: ifP => _; first by case=> _ ->.
      by case=> [[_ [-> ->]]|[_ [[-> ->]|[-> [/negbTE -> _]]]]].
    case=> [|i] Hi /=.
      rewrite orbF; move: once; rewrite /analysed_once; case: ifP => _; first by case=> ->.
      by case=> [[-> [-> _]]|[-> [[-> _]|[-> _]]]].
    by rewrite (IH2 i Hi) Ec2 -orbA.
  by have [G1 G2] := G after c0 Hall; split=> // i Hi; rewrite G2 // Hc0.
rewrite /h {h Hall} /c'; elim: before c => [|[|sys ls s] l IH] c //=.
  by rewrite IH.
by rewrite IH.
Qed.
Print Assumptions C49_simulation.
