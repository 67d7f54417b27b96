(** C74: the legacy static ODE solver. *)

From mathcomp Require Import all_ssreflect all_algebra.
From Verif Require Import CGModel CGProofs NewtonModel NewtonSpec NewtonProofs NewtonProperties OdeProperties LegacyModel LegacySpec LegacyProofs.
Set Implicit Arguments.
Unset Strict Implicit.
Unset Printing Implicit Defensive.
Import GRing.Theory Num.Theory Order.TTheory.
Local Open Scope ring_scope.

Lemma legacy_cases (F : realFieldType) (V : lmodType F) (dotV : V -> V -> F) (S Mx : Type) cfg
    (sys : system V S Mx) ls dx s :
  let p := legacy_progress_of dotV cfg sys ls dx s in
  let t := l_residual_tolerance_threshold cfg in
  let at_rest := (0 < t) && ole (norm2 dotV (rhs sys s)) (Some t) in
  (at_rest /\ p = legacy_start dotV cfg sys dx s) \/
  [/\ ~~ at_rest, linv dotV cfg sys ls s dx p, (size (l_residuals p) <= l_newton_iterations cfg)%N &
      is_running (l_stopped p) -> size (l_residuals p) = l_newton_iterations cfg].
Proof.
move=> p t at_rest; rewrite /p /legacy_progress_of.
have Er : is_running (l_stopped (legacy_start dotV cfg sys dx s)) = ~~ at_rest by rewrite /legacy_start /= -/t -/at_rest; case: (at_rest).
rewrite Er; case Ea : at_rest; [by left | right].
rewrite Ea in Er; split=> //; first by apply: linv_loop => //; apply: linv_start.
all: by have [] := legacy_loop_size dotV cfg sys ls (l_newton_iterations cfg) Er.
Qed.

(** At most newton_iterations iterations; the final state is the initial one after the increments; the k-th increment is the
    answer of the linear solver for the k-th state, or, if the linear solver failed, what the vector dx contained: zero, or with
    the option warm_start the previous increment.  The recorded residuals are those of the states reached. *)
Theorem C74_iterations :
  forall (F : realFieldType) (V : lmodType F) (dotV : V -> V -> F) (S Mx : Type) cfg (sys : system V S Mx) ls dx s,
    let incs := l_increments (legacy_progress_of dotV cfg sys ls dx s) in
    let o := legacy_solve dotV cfg sys ls dx s in
    let R := l_squared_residuals o in
    let K := size R in
    let s_ k := state_after sys s (take k incs) in
    let before k := if warm_start cfg then (if k is k'.+1 then nth None incs k' else dx) else Some 0 in
    [/\ (K <= l_newton_iterations cfg)%N, size incs = K, l_final o = s_ K,
        forall k, (k < K)%N -> nth None incs k = (if ls k (matrix sys (s_ k)) (rhs sys (s_ k)) (before k) is Solved d then d else before k) &
        l_squared_initial_residual o = norm2 dotV (rhs sys s) /\
        forall k, (k < K)%N -> nth None R k = norm2 dotV (rhs sys (s_ k.+1))].
Proof.
move=> F V dotV S Mx cfg sys ls dx s incs o R K s_ before.
case: (legacy_cases dotV cfg sys ls dx s) => [[_ E]|[_ I HK _]].
  by rewrite /K /R /o /s_ /incs /= E.
have Sz := j_size I; split=> //.
- by rewrite /s_ /K /R /o /= -Sz take_size; apply: (j_state I).
- by move=> k Hk; rewrite /incs (j_asked I) // Sz.
by split=> // k Hk; apply: (j_res I).
Qed.
Print Assumptions C74_iterations.

(** The flag.  It is set exactly when the initial state passes the first test, or when a criterion holds at the last iterate,
    without NaN and without a negligible total increment; no criterion held at an earlier iterate.  When it is not set, all the
    iterations were done, or the last one gave NaN or a negligible total increment, or its residual grew and the user asked to
    stop then.  (As in C48, the residual of reference is the one after the first iteration.) *)
Theorem C74_flag_partial :
  forall (F : realFieldType) (V : lmodType F) (dotV : V -> V -> F) (S Mx : Type) cfg (sys : system V S Mx) ls dx s,
    let incs := l_increments (legacy_progress_of dotV cfg sys ls dx s) in
    let o := legacy_solve dotV cfg sys ls dx s in
    let R := l_squared_residuals o in
    let K := size R in
    let crit := legacy_criterion dotV cfg incs R (head None R) in
    let bad := legacy_broken dotV cfg incs R in
    let t := l_residual_tolerance_threshold cfg in
    let at_rest := (0 < t) && ole (norm2 dotV (rhs sys s)) (Some t) in
    [/\ l_converged o = at_rest || [&& (0 < K)%N, crit K & ~~ bad K],
        at_rest -> K = 0%N,
        forall k, (0 < k)%N -> (k < K)%N -> [/\ ~~ crit k, ~~ bad k & ~~ legacy_growing cfg R k] &
        ~~ l_converged o -> K = l_newton_iterations cfg \/ (0 < K)%N /\ (bad K \/ legacy_growing cfg R K)].
Proof.
move=> F V dotV S Mx cfg sys ls dx s incs o R K crit bad t at_rest.
case: (legacy_cases dotV cfg sys ls dx s) => [[A E]|[A I HK Hr]].
  rewrite -/t -/at_rest in A; rewrite /K /R /o /= E /=; rewrite -/t -/at_rest A; split=> //.
rewrite -/t -/at_rest in A; rewrite (negbTE A) /=; split=> //.
- rewrite /o /=; case Es : (l_stopped _) => /=.
  + apply/esym/negbTE; rewrite !negb_and negbK; case: (posnP K) => [->//|K0].
    have [] := j_none I K0 (leqnn _); first by rewrite Es orbT.
    by rewrite -/R -/K /crit => /negbTE ->.
  + by have [-> H2 H3] := j_conv I Es; rewrite /crit /bad H2 H3.
  apply/esym/negbTE; rewrite !negb_and negbK.
  by have [_ [H|[H _]]] := j_div I Es; rewrite -/R -/K /crit /bad ?(negbTE H) ?H ?orbT.
- by move=> k H1 H2; apply: (j_none I) => //; [apply: ltnW | rewrite H2].
rewrite /o /=; case Es : (l_stopped _) => //= _; first by left; apply: Hr; rewrite Es.
by right; have [H0 [H|[_ H]]] := j_div I Es; split=> //; [left | right].
Qed.
Print Assumptions C74_flag_partial.

(** With a single iteration (the default) and thresholds at most 1, the flag is set only if the initial state passes the first
    test: an iteration that reaches equilibrium is never reported. *)
Theorem C74_single_iteration_refuted :
  forall (F : realFieldType) (V : lmodType F) (dotV : V -> V -> F) (S Mx : Type) cfg (sys : system V S Mx) ls dx s,
    (forall v, 0 <= dotV v v) ->
    l_newton_iterations cfg = 1%N ->
    l_correction_tolerance_threshold cfg <= 1 -> l_residual_tolerance_threshold cfg <= 1 ->
    let o := legacy_solve dotV cfg sys ls dx s in
    let t := l_residual_tolerance_threshold cfg in
    l_converged o = (0 < t) && ole (norm2 dotV (rhs sys s)) (Some t).
Proof.
move=> F V dotV S Mx cfg sys ls dx s Hpos H1 Hc Hr o t.
have [F1 _ _ _] := C74_flag_partial dotV cfg sys ls dx s; have [I1 I2 _ _ _] := C74_iterations dotV cfg sys ls dx s.
rewrite F1 -/o -/t; set at_rest := _ && _; case: at_rest => //=.
move: I1 I2; rewrite H1 /=; case ER : (l_residuals _) => [|r [|]] //= _.
case Ei : (l_increments _) => [|d [|]] //= _.
apply/negP => /andP [Hcrit]; rewrite /legacy_broken /= !negb_or => /and3P [Hn Hd _].
move: Hcrit; rewrite /legacy_criterion /= => /orP [/andP [C0 C]|/andP [C0 C]].
  case: d Hd {Ei} C => [d|] //= _; rewrite add0r.
  by have := @oltNge F (Some (dotV d d)) _ (Hpos d) (sq_le1 C0 Hc); rewrite /= => ->.
have [_ _ _ _ [_ R1]] := C74_iterations dotV cfg sys ls dx s.
have := R1 0%N; rewrite /= ER /= => /(_ isT) E; move: C Hn; rewrite E; set v := rhs _ _.
by case: v => [v|] //= C _; have := @oltNge F (Some (dotV v v)) _ (Hpos v) (sq_le1 C0 Hr); rewrite /= C.
Qed.
Print Assumptions C74_single_iteration_refuted.

(** The first test compares the squared norm of the residual with the threshold itself: with a threshold t < 1, a state whose
    residual is anywhere between t and sqrt t is declared in equilibrium and nothing is done. *)
Theorem C74_first_test_refuted :
  forall (F : realFieldType) (V : lmodType F) (dotV : V -> V -> F) (S Mx : Type) cfg (sys : system V S Mx) ls dx s f,
    let t := l_residual_tolerance_threshold cfg in
    rhs sys s = Some f -> 0 < t -> t * t < dotV f f -> dotV f f <= t ->
    let o := legacy_solve dotV cfg sys ls dx s in
    [/\ l_converged o, l_final o = s & l_squared_residuals o = [::]].
Proof.
move=> F V dotV S Mx cfg sys ls dx s f t Ef t0 _ Ht o.
have A : (0 < t) && ole (norm2 dotV (rhs sys s)) (Some t) by rewrite t0 Ef /= Ht.
case: (legacy_cases dotV cfg sys ls dx s) => [[_ E]|[]]; last by rewrite -/t A.
by rewrite /o /legacy_solve E /= -/t A.
Qed.
Print Assumptions C74_first_test_refuted.

(** A linear solver that fails at the second iteration (no warm start) is reported as convergence, whatever the residual. *)
Theorem C74_failed_solve_refuted :
  forall (F : realFieldType) (V : lmodType F) (dotV : V -> V -> F) (S Mx : Type) cfg (sys : system V S Mx) ls dx s f0 u f1,
    (forall v, 0 <= dotV v v) -> dotV 0 0 = 0 -> ~~ warm_start cfg -> (1 < l_newton_iterations cfg)%N ->
    let c := l_correction_tolerance_threshold cfg in
    let t := l_residual_tolerance_threshold cfg in
    0 < c <= 1 -> t <= 1 ->
    rhs sys s = Some f0 -> t < dotV f0 f0 ->
    let s1 := propagate sys s (Some u) in
    rhs sys s1 = Some f1 -> propagate sys s1 (Some 0) = s1 ->
    0 < dotV u u -> l_EPSILON cfg <= dotV u u ->
    ls 0%N (matrix sys s) (Some f0) (Some 0) = Solved (Some u) ->
    ls 1%N (matrix sys s1) (Some f1) (Some 0) = Failed ->
    let o := legacy_solve dotV cfg sys ls dx s in
    [/\ l_converged o, l_final o = s1 & l_squared_residuals o = [:: Some (dotV f1 f1); Some (dotV f1 f1)]].
Proof.
move=> F V dotV S Mx cfg sys ls dx s f0 u f1 Hpos H00 W N c t /andP [c0 c1] t1 E0 T0 s1 E1 P0 U0 UE L0 L1 o.
case EN : (l_newton_iterations cfg) N => [|[|m]] // _.
have c2 := sq_le1 c0 c1.
have Tr : (0 < t) && ole (Some (dotV f0 f0)) (Some t) = false by rewrite /= [_ <= t]leNgt T0 andbF.
have H1 : 0 < t -> olt (Some (dotV f1 f1)) (Some (t * t * dotV f1 f1)) = false.
  by move=> t0; apply: (@oltNge F (Some (dotV f1 f1)) _ (Hpos f1) (sq_le1 t0 t1)).
have H2 : dotV u u < c * c * dotV u u = false.
  by have := @oltNge F (Some (dotV u u)) _ (Hpos u) c2.
rewrite /o /legacy_solve /legacy_progress_of {1}/legacy_start /= E0 -/t Tr /= EN.
rewrite /legacy_start /= (negbTE W) E0 -/t Tr /= /legacy_iteration /= L0 -/s1 E1 /= add0r.
rewrite /legacy_check /= [dotV u u < _]ltNge UE /= -/c c0 H2 /= -/t andbF.
have -> : (0 < t) && (dotV f1 f1 < t * t * dotV f1 f1) = false.
  by case t0 : (0 < t) => //=; apply: H1.
rewrite ?andbF /= (negbTE W) L1 /= P0 E1 /= addr0 H00 [dotV u u < _]ltNge UE /=.
by rewrite !mulr_gt0.
Qed.
Print Assumptions C74_failed_solve_refuted.

(** With the option warm_start, such a failure applies the previous increment a second time. *)
Theorem C74_failed_warm_start_refuted :
  forall (F : realFieldType) (V : lmodType F) (dotV : V -> V -> F) (S Mx : Type) cfg (sys : system V S Mx) ls dx s f0 u f1,
    (forall v, 0 <= dotV v v) -> warm_start cfg -> l_newton_iterations cfg = 2%N ->
    let c := l_correction_tolerance_threshold cfg in
    let t := l_residual_tolerance_threshold cfg in
    c <= 1 -> t <= 1 ->
    rhs sys s = Some f0 -> t < dotV f0 f0 ->
    let s1 := propagate sys s (Some u) in
    rhs sys s1 = Some f1 -> l_EPSILON cfg <= dotV u u ->
    ls 0%N (matrix sys s) (Some f0) dx = Solved (Some u) ->
    ls 1%N (matrix sys s1) (Some f1) (Some u) = Failed ->
    l_final (legacy_solve dotV cfg sys ls dx s) = propagate sys s1 (Some u).
Proof.
move=> F V dotV S Mx cfg sys ls dx s f0 u f1 Hpos W EN c t c1 t1 E0 T0 s1 E1 UE L0 L1.
have Tr : (0 < t) && ole (Some (dotV f0 f0)) (Some t) = false by rewrite /= [_ <= t]leNgt T0 andbF.
have H1 (a : F) v : a <= 1 -> (0 < a) && (dotV v v < a * a * dotV v v) = false.
  move=> a1; case a0 : (0 < a) => //=; exact: (@oltNge F (Some (dotV v v)) _ (Hpos v) (sq_le1 a0 a1)).
rewrite /legacy_solve /legacy_progress_of {1}/legacy_start /= E0 -/t Tr /= EN.
rewrite /legacy_start /= W E0 -/t Tr /= /legacy_iteration /= L0 -/s1 E1 /= add0r.
rewrite /legacy_check /= [dotV u u < _]ltNge UE /= -/c -/t !H1 // /= andbF /= W L1 /=.
by rewrite andbF /=; case: (is_running _).
Qed.
Print Assumptions C74_failed_warm_start_refuted.

(** Affine force, linear solver that always answers with the solution, two iterations allowed, first increment not negligible:
    the position after the first iteration is in equilibrium, the second iteration finds it out, and this is reported. *)
Theorem C74_affine :
  forall (F : realFieldType) n (me : mechanics F n) g K B cfg (ls : legacy_solver [lmodType F of 'cV[F]_n] (option 'M[F]_n)) dx0 x0,
    affine_mechanics me g K B -> projection me ->
    (forall k (A : 'M[F]_n) (f : 'cV[F]_n) guess, exists y : 'cV[F]_n, ls k (Some A) (Some f) guess = Solved (Some y) /\ A *m y = f) ->
    (forall y : 'cV[F]_n, constrain (proj me) (- K) *m y = 0 -> y = 0) ->
    (1 < l_newton_iterations cfg)%N -> 0 < l_correction_tolerance_threshold cfg <= 1 ->
    let o := legacy_solve (@dot F n) cfg (static_system me) ls dx0 (Some x0) in
    (0 < size (l_squared_residuals o))%N ->
    (forall x1 : 'cV[F]_n, proj me *m force me x1 = 0 -> proj me *m (x1 - x0) = x1 - x0 ->
      0 < dot (x1 - x0) (x1 - x0) /\ l_EPSILON cfg <= dot (x1 - x0) (x1 - x0)) ->
    exists x1 : 'cV[F]_n, [/\ l_final o = Some x1, proj me *m force me x1 = 0, proj me *m (x1 - x0) = x1 - x0,
                   l_squared_residuals o = [:: Some 0; Some 0] & l_converged o].
Proof.
move=> F n me g K B cfg ls dx0 x0 [Hf [HK HB]] PP Ex Inj N /andP [c0 c1] o K0 HE.
set sys := static_system me in o K0 *.
have [I1 I2 I3 I4 [_ I5]] := C74_iterations (@dot F n) cfg sys ls dx0 (Some x0).
have [F1 F2 F3 F4] := C74_flag_partial (@dot F n) cfg sys ls dx0 (Some x0).
rewrite -/o in I1 I2 I3 I4 I5 F1 F2 F3 F4.
set incs := l_increments _ in I2 I3 I4 I5 F1 F3 F4.
have A0 : mbk_matrix me x0 0 0 (-1) = - K by rewrite /mbk_matrix HK !scale0r !add0r scaleN1r.
have A1 x : mbk_matrix me x 0 0 (-1) = - K by rewrite /mbk_matrix HK !scale0r !add0r scaleN1r.
have := I4 0%N K0; rewrite take0 /=; set bf := (if warm_start cfg then _ else _).
have [u [-> Eu]] := Ex 0%N (constrain (proj me) (mbk_matrix me x0 0 0 (-1))) (proj me *m force me x0) bf => E1.
have [P1 P2] := constrained PP Eu; rewrite A0 in P2 Eu.
have Eq : proj me *m force me (x0 + u) = 0.
  by rewrite !Hf [K *m (_ + _)]mulmxDr addrA mulmxDr -Hf -P2 -mulmxA mulNmx mulmxN addrC subrr.
have [U0 UE] : 0 < dot u u /\ l_EPSILON cfg <= dot u u.
  by have := HE (x0 + u) Eq; rewrite addrC addKr; apply.
have Ei : incs = Some u :: behead incs by case Einc : incs I2 E1 => [|d l] /=; [move=> E; rewrite -E in K0 | move=> _ ->].
have Sum1 : sum_of (take 1 incs) = Some u by rewrite Ei /= take0 /sum_of /= add0r.
have R1 : nth None (l_squared_residuals o) 0 = Some 0.
  by rewrite I5 // Ei /= take0 /= Eq dot0l.
have NC1 : legacy_criterion (@dot F n) cfg incs (l_squared_residuals o) (head None (l_squared_residuals o)) 1 = false.
  rewrite /legacy_criterion Sum1 -nth0 E1 R1 /=.
  rewrite mulr0 ltxx andbF orbF c0 /=.
  by have := @oltNge F (Some (dot u u)) _ (ltW U0) (sq_le1 c0 c1).
have NB1 : legacy_broken (@dot F n) cfg incs (l_squared_residuals o) 1 = false.
  by rewrite /legacy_broken Sum1 /= E1 R1 /= ltNge UE.
have K1 : (1 < size (l_squared_residuals o))%N.
  rewrite ltn_neqAle K0 andbT; apply/eqP => E.
  have Nc : ~~ l_converged o.
    rewrite F1 -E NC1 /= orbF; apply/negP => H; by rewrite F2 in E.
  case: (F4 Nc) => [E'|[_ [B'|G']]]; first by rewrite -E' -E in N.
    by rewrite -E NB1 in B'.
  by move: G'; rewrite -E /legacy_growing /= andbF.
have := I4 1%N K1; rewrite Ei /= take0 /=; set bf1 := (if warm_start cfg then _ else _).
have [y [-> Ey]] := Ex 1%N (constrain (proj me) (mbk_matrix me (x0 + u) 0 0 (-1))) (proj me *m force me (x0 + u)) bf1.
rewrite A1 Eq in Ey; rewrite (Inj _ Ey) => E2.
have Ei2 : incs = [:: Some u, Some 0 & behead (behead incs)].
  have Sz2 : (1 < size incs)%N by rewrite I2.
  move: E2 Sz2; rewrite Ei /=; by case: (behead incs) => [|d l] //= ->.
have Sum2 : sum_of (take 2 incs) = Some u by rewrite Ei2 /= take0 /sum_of /= add0r addr0.
have R2 : nth None (l_squared_residuals o) 1 = Some 0.
  by rewrite I5 // Ei2 /= take0 /= addr0 Eq dot0l.
have Cr : legacy_criterion (@dot F n) cfg incs (l_squared_residuals o) (head None (l_squared_residuals o)) 2.
  by rewrite /legacy_criterion Sum2 Ei2 /= dot0l c0 !mulr_gt0.
have Bd : ~~ legacy_broken (@dot F n) cfg incs (l_squared_residuals o) 2.
  by rewrite /legacy_broken Sum2 R2 Ei2 /= -leNgt.
have K2 : size (l_squared_residuals o) = 2%N.
  apply/eqP; rewrite eqn_leq K1 andbT leqNgt; apply/negP => H.
  by have [C _ _] := F3 2%N isT H; rewrite Cr in C.
have Fin : l_final o = Some (x0 + u) by rewrite I3 K2 Ei2 /= take0 /= addr0.
have Res : l_squared_residuals o = [:: Some 0; Some 0].
  by move: K2 R1 R2; case: (l_squared_residuals o) => [|a [|b [|]]] //= _ -> ->.
have Cv : l_converged o by rewrite F1 K2 Cr Bd orbT.
exists (x0 + u); split; [exact: Fin | exact: Eq | by rewrite addrC addKr | exact: Res | exact: Cv].
Qed.
Print Assumptions C74_affine.

(** ** Concrete runs, with rational numbers: residual 4 - x, from 0, where the linear solver answers 1 at the first iteration and
    fails afterwards. *)
Definition line_system : system [lmodType rat of rat^o] rat unit :=
  @System _ [lmodType rat of rat^o] rat unit (fun x => Some (4%:R - x : rat^o)) (fun _ => tt) (fun x d => if d is Some d then x + (d : rat) else x).
Definition line_solver : legacy_solver [lmodType rat of rat^o] unit :=
  fun k _ _ _ => if k is 0 then Solved (Some (1 : rat^o)) else Failed.
Definition line_config (warm : bool) : legacy_config rat_realFieldType :=
  @LegacyConfig rat_realFieldType (1 / 100%:R) 2 (1 / 10%:R) (1 / 10%:R) false warm.
Example C74_failed_solve_example :
  let o := legacy_solve rdot (line_config false) line_system line_solver None 0 in
  [&& l_converged o, l_final o == 1 & l_squared_residuals o == [:: Some 9%:R; Some 9%:R]].
Proof. by vm_compute. Qed.
Example C74_failed_warm_start_example :
  let o := legacy_solve rdot (line_config true) line_system line_solver (Some 0) 0 in
  (l_final o == 2%:R) && ~~ l_converged o.
Proof. by vm_compute. Qed.
Example C74_first_test_example :
  let o := legacy_solve rdot (line_config false) line_system line_solver None (4%:R - 2%:R / 10%:R) in
  [&& l_converged o, l_squared_residuals o == [::] & l_squared_initial_residual o == Some (4%:R / 100%:R)].
Proof. by vm_compute. Qed.
