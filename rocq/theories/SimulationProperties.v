(** C101: over a whole simulation, a Caribou ODE solver with a direct linear solver does Newton's method with the linear solver that the scene describes. *)

From Coq Require Import Reals Lra Lia.
From Coq Require Import List Arith Bool.
From Verif Require Import ShapeModel Sums DirectModel DirectSpec DirectProperties SimulationModel SimulationSpec SimulationProofs.
Import ListNotations.
Open Scope R_scope.

(** ** Which linear solver is used *)

(** An initialisation keeps a link to a Caribou solver; otherwise it takes the first Caribou solver of the node, and leaves the link as it is if there is none. *)
Theorem C101_choice : forall S (sc : scene S) node, let sc' := init S node sc in
  solvers S sc' = solvers S sc /\ state S sc' = state S sc /\ p_has_already_analyzed_the_pattern (solver S sc') = false /\
  ((exists d, linked sc d) -> l_linear_solver (solver S sc') = l_linear_solver (solver S sc)) /\
  ((forall d, ~ linked sc d) -> forall before k after, node = before ++ k :: after ->
     (forall j s, In j before -> nth_error (solvers S sc) j <> Some (Some s)) -> (exists s, nth_error (solvers S sc) k = Some (Some s)) -> l_linear_solver (solver S sc') = Some k) /\
  ((forall d, ~ linked sc d) -> (forall j s, In j node -> nth_error (solvers S sc) j <> Some (Some s)) ->
     l_linear_solver (solver S sc') = l_linear_solver (solver S sc) /\ forall d, ~ linked sc' d).
Proof.
  intros S sc node. cbn zeta. split; [reflexivity|]. split; [reflexivity|]. split; [reflexivity|].
  assert (Skip : forall before rest, (forall j s, In j before -> nth_error (solvers S sc) j <> Some (Some s)) ->
    filter (fun k => match caribou_solver S sc k with Some _ => true | None => false end) (before ++ rest) =
    filter (fun k => match caribou_solver S sc k with Some _ => true | None => false end) rest).
  { induction before as [|j before IH]; intros rest H; [reflexivity|]. cbn [app filter].
    assert (Ej : caribou_solver S sc j = None).
    { unfold caribou_solver. destruct (nth_error (solvers S sc) j) as [[s|]|] eqn:E; [|reflexivity|reflexivity]. exfalso. exact (H j s (or_introl eq_refl) E). }
    rewrite Ej. apply IH. intros i s Hi. apply H. right. exact Hi. }
  split; [|split].
  - intros (d & k & e & H). unfold init. cbn [solver l_linear_solver]. rewrite (proj2 (valid_linked S sc k d e) H). reflexivity.
  - intros NL before k after -> Hb (s & Hk). unfold init. cbn [solver l_linear_solver]. rewrite (proj2 (none_linked S sc) NL), Skip by exact Hb. cbn [filter].
    unfold caribou_solver at 1. rewrite Hk. reflexivity.
  - intros NL Hn. assert (E : l_linear_solver (solver S (init S node sc)) = l_linear_solver (solver S sc)).
    { unfold init. cbn [solver l_linear_solver]. rewrite (proj2 (none_linked S sc) NL). pose proof (Skip node [] Hn) as K. rewrite app_nil_r in K. rewrite K. reflexivity. }
    split; [exact E|]. intros d (k & e & Hk & He). apply (NL d). exists k, e. rewrite E in Hk. split; [exact Hk|exact He].
Qed.
Print Assumptions C101_choice.

(** ** Every history *)

(** With the strategy ALWAYS, any history of steps, initialisations, resets, new links and uses of the linear solvers by others is right: every step is
    Newton's method with the linked solver.  The same with BEGINNING_OF_THE_TIME_STEP, the default, for systems whose increments do not change the
    stored positions. *)
Theorem C101_always : forall decompose analysable S (sys : system S) h sc, exact_decomposition decompose -> well_posed sys sc -> strategy_of ALWAYS h ->
  exists trace, run decompose analysable S sys h sc = Done trace /\ history_right decompose analysable sys sc h trace.
Proof.
  intros decompose analysable S sys h sc Ex W St. apply (run_right decompose analysable S sys Ex (free_ready S sys) h sc W). left. exact St.
Qed.
Print Assumptions C101_always.
Theorem C101_each_step_partial : forall decompose analysable S (sys : system S) h sc, exact_decomposition decompose -> well_posed sys sc -> strategy_of BEGINNING_OF_THE_TIME_STEP h ->
  (forall s dx, positions (system_matrix S sys (propagate S sys s dx)) = positions (system_matrix S sys s)) ->
  exists trace, run decompose analysable S sys h sc = Done trace /\ history_right decompose analysable sys sc h trace.
Proof.
  intros decompose analysable S sys h sc Ex W St P. apply (run_right decompose analysable S sys Ex (free_ready S sys) h sc W). right. split; assumption.
Qed.
Print Assumptions C101_each_step_partial.

(** With BEGINNING_OF_THE_SIMULATION: histories in which all the matrices, those of the others included, have the same stored positions, and in which the
    ODE solver is initialised or reset after a change of its link. *)
Theorem C101_once_partial : forall decompose analysable S (sys : system S) h sc P, exact_decomposition decompose -> well_posed sys sc ->
  strategy_of BEGINNING_OF_THE_SIMULATION h -> p_has_already_analyzed_the_pattern (solver S sc) = false ->
  (forall s, positions (system_matrix S sys s) = P) -> (forall k A, In (Elsewhere S k A) h -> positions A = P) -> initialised_after_links false h ->
  exists trace, run decompose analysable S sys h sc = Done trace /\ history_right decompose analysable sys sc h trace.
Proof.
  intros decompose analysable S sys h sc P Ex W St Fl Hm He Ia. apply (run_once decompose analysable S sys Ex P h Hm He St false sc Ia W).
  intros _ C. rewrite Fl in C. discriminate.
Qed.
Print Assumptions C101_once_partial.

(** ** What breaks it *)

Section First.
Context (decompose : decomposition -> nat -> (nat -> nat -> R) -> option (list R -> list R)) (analysable : decomposition -> pattern -> bool) (S : Type) (sys : system S).

(** The first iteration of a step in which the pattern must be analysed. *)
Lemma first_iteration c d fuel e s : must_analyze (pattern_strategy S c) false = true -> can_solve decompose analysable d (system_matrix S sys s) ->
  exists e' dx, analysis e' = Some (pattern_read d (system_matrix S sys s)) /\
    iterate decompose analysable S sys c d (Datatypes.S fuel) (Progress S e false s [] Running) =
    iterate decompose analysable S sys c d fuel (Progress S e' true (propagate S sys s dx) [dx] (tests S c [dx] (propagate S sys s dx))).
Proof.
  intros Ma [Ca Cd]. cbn [iterate verdict at_state already object increments]. rewrite Ma. unfold analyze_pattern. rewrite Ca. cbn [negb]. unfold factorize. cbn [analysis].
  rewrite (proj2 (same_pattern_true _ _) eq_refl). destruct (decompose d _ _) as [f|]; [|congruence]. eexists. eexists. split; [|reflexivity]. reflexivity.
Qed.
Lemma unready_misuse c d fuel p : verdict S p = Running -> must_analyze (pattern_strategy S c) (already S p) = false ->
  analysis (object S p) <> Some (pattern_read d (system_matrix S sys (at_state S p))) -> iterate decompose analysable S sys c d (Datatypes.S fuel) p = Misuse.
Proof.
  intros V Ma N. cbn [iterate]. rewrite V, Ma. cbn [negb]. unfold factorize. destruct (analysis (object S p)) as [q|]; [|reflexivity].
  destruct (same_pattern q _) eqn:E; [|reflexivity]. apply same_pattern_true in E. congruence.
Qed.
Lemma step_misuse c sc k d e : l_linear_solver (solver S sc) = Some k -> nth_error (solvers S sc) k = Some (Some (d, e)) -> newton_iterations S c <> 0%nat ->
  tests S c [] (state S sc) <> Converged -> pattern_strategy S c = NEVER \/ (pattern_strategy S c = BEGINNING_OF_THE_SIMULATION /\ p_has_already_analyzed_the_pattern (solver S sc) = true) ->
  analysis e <> Some (pattern_read d (system_matrix S sys (state S sc))) -> step decompose analysable S sys c sc = Misuse.
Proof.
  intros Hk He Hn Ht Hs Ha. unfold step. rewrite (proj2 (valid_linked S sc k d e) (conj Hk He)).
  replace (match tests S c [] (state S sc) with Converged => Converged | _ => Running end) with Running by (destruct (tests S c [] (state S sc)); congruence).
  destruct (newton_iterations S c) as [|n]; [congruence|]. rewrite unready_misuse; [reflexivity|reflexivity| |exact Ha].
  cbn [already]. destruct Hs as [->|[-> ->] ]; reflexivity.
Qed.
(** A first step of one iteration with the strategy BEGINNING_OF_THE_SIMULATION. *)
Lemma first_step c sc k d e : l_linear_solver (solver S sc) = Some k -> nth_error (solvers S sc) k = Some (Some (d, e)) -> newton_iterations S c = 1%nat ->
  pattern_strategy S c = BEGINNING_OF_THE_SIMULATION -> p_has_already_analyzed_the_pattern (solver S sc) = false -> tests S c [] (state S sc) <> Converged ->
  can_solve decompose analysable d (system_matrix S sys (state S sc)) ->
  exists e' dx b, analysis e' = Some (pattern_read d (system_matrix S sys (state S sc))) /\
    step decompose analysable S sys c sc = Done (Scene S (set_nth k (Some (d, e')) (solvers S sc)) (Ode (Some k) true b) (propagate S sys (state S sc) dx), [dx]).
Proof.
  intros Hk He Hn Hs Hf Ht Hc. unfold step. rewrite (proj2 (valid_linked S sc k d e) (conj Hk He)), Hs, Hn, Hf.
  replace (match tests S c [] (state S sc) with Converged => Converged | _ => Running end) with Running by (destruct (tests S c [] (state S sc)); congruence).
  destruct (first_iteration c d 0 e (state S sc)) as (e' & dx & Ha & E); [rewrite Hs; reflexivity|exact Hc|]. rewrite E. exists e', dx. eexists. split; [exact Ha|].
  cbn [iterate]. reflexivity.
Qed.
End First.

(** Strategy NEVER: the first step that has something to do uses a decomposition without an analysis, whatever the direct solver. *)
Theorem C101_never_refuted : forall decompose analysable S (sys : system S) sc c k d e, l_linear_solver (solver S sc) = Some k ->
  nth_error (solvers S sc) k = Some (Some (d, e)) -> analysis e = None -> pattern_strategy S c = NEVER -> newton_iterations S c <> 0%nat ->
  tests S c [] (state S sc) <> Converged -> run decompose analysable S sys [Step S c] sc = Misuse.
Proof.
  intros decompose analysable S sys sc c k d e Hk He Ha Hs Hn Ht. cbn [run run_event].
  rewrite (step_misuse decompose analysable S sys c sc k d e Hk He Hn Ht (or_introl Hs)); [reflexivity|congruence].
Qed.
Print Assumptions C101_never_refuted.

(** The default strategy: an increment that changes the stored positions in the middle of a step. *)
Theorem C101_within_step_refuted : forall decompose analysable S (sys : system S) sc c k d e, l_linear_solver (solver S sc) = Some k ->
  nth_error (solvers S sc) k = Some (Some (d, e)) -> pattern_strategy S c = BEGINNING_OF_THE_TIME_STEP -> (1 < newton_iterations S c)%nat ->
  tests S c [] (state S sc) <> Converged -> can_solve decompose analysable d (system_matrix S sys (state S sc)) ->
  (forall dx, tests S c [dx] (propagate S sys (state S sc) dx) = Running /\
     pattern_read d (system_matrix S sys (propagate S sys (state S sc) dx)) <> pattern_read d (system_matrix S sys (state S sc))) ->
  run decompose analysable S sys [Step S c] sc = Misuse.
Proof.
  intros decompose analysable S sys sc c k d e Hk He Hs Hn Ht Hc Hp. cbn [run run_event]. unfold step. rewrite (proj2 (valid_linked S sc k d e) (conj Hk He)), Hs.
  replace (match tests S c [] (state S sc) with Converged => Converged | _ => Running end) with Running by (destruct (tests S c [] (state S sc)); congruence).
  destruct (newton_iterations S c) as [|[|n] ]; [lia|lia|]. destruct (first_iteration decompose analysable S sys c d (Datatypes.S n) e (state S sc)) as (e' & dx & Ha & E); [rewrite Hs; reflexivity|exact Hc|].
  rewrite E. destruct (Hp dx) as [Hr Hd]. rewrite unready_misuse; [reflexivity|exact Hr|cbn [already]; rewrite Hs; reflexivity|]. cbn [object at_state]. rewrite Ha. congruence.
Qed.
Print Assumptions C101_within_step_refuted.

(** BEGINNING_OF_THE_SIMULATION: the positions change between two steps; the link changes without an initialisation; another ODE solver uses the same
    linear solver for a matrix with other positions. *)
Theorem C101_between_steps_refuted : forall decompose analysable S (sys : system S) sc c k d e, l_linear_solver (solver S sc) = Some k ->
  nth_error (solvers S sc) k = Some (Some (d, e)) -> pattern_strategy S c = BEGINNING_OF_THE_SIMULATION -> newton_iterations S c = 1%nat ->
  p_has_already_analyzed_the_pattern (solver S sc) = false -> (forall s, tests S c [] s <> Converged) -> can_solve decompose analysable d (system_matrix S sys (state S sc)) ->
  (forall dx, pattern_read d (system_matrix S sys (propagate S sys (state S sc) dx)) <> pattern_read d (system_matrix S sys (state S sc))) ->
  run decompose analysable S sys [Step S c; Step S c] sc = Misuse.
Proof.
  intros decompose analysable S sys sc c k d e Hk He Hs Hn Hf Ht Hc Hp. destruct (first_step decompose analysable S sys c sc k d e Hk He Hn Hs Hf (Ht _) Hc) as (e' & dx & b & Ha & E).
  cbn [run run_event]. rewrite E. cbn [fst]. rewrite (step_misuse decompose analysable S sys c _ k d e'); [reflexivity|reflexivity|apply (nth_set_same _ _ _ _ He)|lia|apply Ht|right; split; [exact Hs|reflexivity]|].
  cbn [state]. rewrite Ha. intros C. apply (Hp dx). congruence.
Qed.
Print Assumptions C101_between_steps_refuted.
Theorem C101_new_link_refuted : forall decompose analysable S (sys : system S) sc c k d e k' d' e', l_linear_solver (solver S sc) = Some k ->
  nth_error (solvers S sc) k = Some (Some (d, e)) -> k' <> k -> nth_error (solvers S sc) k' = Some (Some (d', e')) -> analysis e' = None ->
  pattern_strategy S c = BEGINNING_OF_THE_SIMULATION -> newton_iterations S c = 1%nat ->
  p_has_already_analyzed_the_pattern (solver S sc) = false -> (forall s, tests S c [] s <> Converged) -> can_solve decompose analysable d (system_matrix S sys (state S sc)) ->
  run decompose analysable S sys [Step S c; Link S (Some k'); Step S c] sc = Misuse.
Proof.
  intros decompose analysable S sys sc c k d e k' d' e' Hk He Nk He' Ha' Hs Hn Hf Ht Hc.
  destruct (first_step decompose analysable S sys c sc k d e Hk He Hn Hs Hf (Ht _) Hc) as (e1 & dx & b & Ha & E).
  cbn [run run_event]. rewrite E. cbn [fst set_link]. rewrite (step_misuse decompose analysable S sys c _ k' d' e'); [reflexivity|reflexivity| |lia|apply Ht|right; split; [exact Hs|reflexivity]|congruence].
  cbn [solvers set_link]. rewrite nth_set_other by exact Nk. exact He'.
Qed.
Print Assumptions C101_new_link_refuted.
Theorem C101_shared_refuted : forall decompose analysable S (sys : system S) sc c k d e A, l_linear_solver (solver S sc) = Some k ->
  nth_error (solvers S sc) k = Some (Some (d, e)) -> pattern_strategy S c = BEGINNING_OF_THE_SIMULATION -> newton_iterations S c = 1%nat ->
  p_has_already_analyzed_the_pattern (solver S sc) = false -> (forall s, tests S c [] s <> Converged) -> can_solve decompose analysable d (system_matrix S sys (state S sc)) ->
  (forall dx, pattern_read d A <> pattern_read d (system_matrix S sys (propagate S sys (state S sc) dx))) ->
  run decompose analysable S sys [Step S c; Elsewhere S k A; Step S c] sc = Misuse.
Proof.
  intros decompose analysable S sys sc c k d e A Hk He Hs Hn Hf Ht Hc HA.
  destruct (first_step decompose analysable S sys c sc k d e Hk He Hn Hs Hf (Ht _) Hc) as (e1 & dx & b & Ha & E).
  cbn [run run_event]. rewrite E. cbn [fst]. unfold elsewhere, caribou_solver. cbn [solvers]. rewrite (nth_set_same _ _ _ _ He). cbn [solver state].
  set (e2 := match factorize decompose d A _ with Done (x, _) => x | Misuse => _ end).
  assert (A2 : analysis e2 = Some (pattern_read d A) \/ analysis e2 = None).
  { unfold e2, analyze_pattern, factorize. destruct (analysable d (pattern_read d A)); cbn [fst analysis]; [|right; reflexivity].
    rewrite (proj2 (same_pattern_true _ _) eq_refl). left. reflexivity. }
  rewrite (step_misuse decompose analysable S sys c _ k d e2); [reflexivity|reflexivity| |lia|apply Ht|right; split; [exact Hs|reflexivity]|].
  - cbn [solvers]. eapply nth_set_same. apply (nth_set_same _ _ _ _ He).
  - cbn [state]. destruct A2 as [-> | ->]; [|discriminate]. intros C. apply (HA dx). congruence.
Qed.
Print Assumptions C101_shared_refuted.

(** A step without a linear solver does nothing, and still says that it converged if the previous one did. *)
Theorem C101_nothing_solved_refuted : forall decompose analysable S (sys : system S) sc c, d_converged (solver S sc) = true ->
  exists sc', run decompose analysable S sys [Link S None; Step S c] sc = Done [(sc', []); (sc', [])] /\ state S sc' = state S sc /\ d_converged (solver S sc') = true.
Proof. intros decompose analysable S sys sc c H. exists (set_link S None sc). split; [reflexivity|]. split; [reflexivity|exact H]. Qed.
Print Assumptions C101_nothing_solved_refuted.

(** ** Cases that meet the hypotheses *)

(** Two springs: the right-hand side is what remains of the load (3, 3) after the displacement. *)
Definition springs : system (list R) := System (list R)
  (fun s => [3 - (2 * nth 0 s 0 + nth 1 s 0); 3 - (nth 0 s 0 + 2 * nth 1 s 0)]) (fun _ => A1) (fun s dx => [nth 0 s 0 + nth 0 dx 0; nth 1 s 0 + nth 1 dx 0]).
Definition one_test (l : list (list R)) (_ : list R) : status := match l with [] => Running | _ => Converged end.
Definition fresh : option (decomposition * eigen) := Some (LDLT, Eigen None None false).
(** A solver of SOFA and two of Caribou; the ODE solver has no link yet. *)
Definition spring_scene : scene (list R) := Scene (list R) [None; fresh; fresh] (Ode None false false) [0; 0].
Definition spring_history (s : strategy) : list (event (list R)) :=
  [Init _ [0; 1; 2]%nat; Step _ (Settings _ s 5 one_test); Elsewhere _ 1 A2; Step _ (Settings _ s 5 one_test); Link _ (Some 2%nat); Init _ []; Step _ (Settings _ s 5 one_test)].
Example C101_hypotheses : well_posed springs spring_scene /\ (forall s, strategy_of s (spring_history s)) /\ (forall s, positions (system_matrix _ springs s) = positions A1) /\
  (forall s k A, In (Elsewhere _ k A) (spring_history s) -> positions A = positions A1) /\ (forall s, initialised_after_links false (spring_history s)).
Proof.
  split; [|split; [|split; [|split] ] ].
  - intros s. split; [reflexivity|left]. intros [|[|i] ] [|[|j] ]; reflexivity.
  - intros s. repeat constructor.
  - reflexivity.
  - intros s k A H. cbn in H. repeat (destruct H as [H|H]; [try discriminate; injection H as <- <-; reflexivity|]). contradiction.
  - intros s. cbn. auto.
Qed.
(** The initialisation takes the solver number 1, and the first step moves to the equilibrium (1, 1). *)
Example C101_first_step : forall s, s <> NEVER -> exists sc, run cramer (fun _ _ => true) _ springs (firstn 2 (spring_history s)) spring_scene =
    Done [(init _ [0; 1; 2]%nat spring_scene, []); (sc, [[1; 1]])] /\ state _ sc = [1; 1] /\ l_linear_solver (solver _ sc) = Some 1%nat /\ d_converged (solver _ sc) = true.
Proof.
  intros s Hs. set (sc1 := init _ [0; 1; 2]%nat spring_scene).
  assert (F : exists f, cramer LDLT 2 (lower (value A1)) = Some f /\ f [3; 3] = [1; 1]).
  { unfold cramer. cbn. match goal with |- context [Req_EM_T ?x 0] => destruct (Req_EM_T x 0) as [C|N]; [exfalso; unfold values in C; cbn in C; lra|] end.
    eexists. split; [reflexivity|]. cbn. unfold values. cbn. f_equal; [field|f_equal; field]. }
  destruct F as (f & Ef & Hf).
  assert (E : forall b : strategy, b <> NEVER -> exists sc, step cramer (fun _ _ => true) _ springs (Settings _ b 5 one_test) sc1 = Done (sc, [[1; 1]]) /\ state _ sc = [1; 1] /\
    l_linear_solver (solver _ sc) = Some 1%nat /\ d_converged (solver _ sc) = true).
  { intros b Hb. assert (M : must_analyze b false = true) by (destruct b; [congruence|reflexivity|reflexivity|reflexivity]).
    assert (Fa : forall e, analysis e = Some (pattern_read LDLT A1) -> factorize cramer LDLT A1 e = Done (Eigen (Some (pattern_read LDLT A1)) (Some (Some f)) true, true)).
    { intros e He. unfold factorize. rewrite He, (proj2 (same_pattern_true _ _) eq_refl). cbn [rows A1 read_by]. rewrite Ef. reflexivity. }
    unfold step. cbn [valid_linear_solver sc1 init solver l_linear_solver spring_scene solvers caribou_solver nth_error fresh filter state tests one_test newton_iterations pattern_strategy p_has_already_analyzed_the_pattern].
    replace (match b with BEGINNING_OF_THE_TIME_STEP => false | _ => false end) with false by (destruct b; reflexivity).
    cbn [iterate verdict at_state already object increments pattern_strategy system_matrix springs]. rewrite M. unfold analyze_pattern. cbn [negb]. rewrite Fa by reflexivity.
    cbn [rhs springs nth DirectModel.solve factorisation info]. replace [3 - (2 * 0 + 0); 3 - (0 + 2 * 0)] with [3; 3] by (f_equal; [lra|f_equal; lra]). rewrite Hf.
    cbn. eexists. split; [reflexivity|]. cbn [state solver l_linear_solver d_converged]. split; [|split; reflexivity].
    f_equal; [lra|f_equal; lra]. }
  destruct (E s Hs) as (sc & Es & H). exists sc. split; [|exact H]. cbn [spring_history firstn run run_event fst]. fold sc1. rewrite Es. reflexivity.
Qed.
(** A contact that appears when the body moves: two more positions are stored. *)
Definition contact : system bool := System bool (fun _ => [3; 3]) (fun b => if b then A1 else Matrix 2 [(0, 0); (1, 1)]%nat (values 2 0 0 2)) (fun _ _ => true).
Example C101_refuted_hypotheses : let sc := Scene bool [fresh; fresh] (Ode (Some 0%nat) false false) false in
  can_solve cramer (fun _ _ => true) LDLT (system_matrix _ contact (state _ sc)) /\
  (forall dx, pattern_read LDLT (system_matrix _ contact (propagate _ contact (state _ sc) dx)) <> pattern_read LDLT (system_matrix _ contact (state _ sc))) /\
  (forall dx, pattern_read LDLT (Matrix 2 [(0, 0); (1, 1)]%nat (values 2 0 0 2)) <> pattern_read LDLT (system_matrix _ contact (propagate _ contact (state _ sc) dx))).
Proof.
  cbn zeta. split; [|split; [intros dx; cbn; discriminate|intros dx; cbn; discriminate] ]. split; [reflexivity|].
  unfold cramer. cbn. match goal with |- context [Req_EM_T ?x 0] => destruct (Req_EM_T x 0) as [C|N]; [exfalso; unfold values in C; cbn in C; lra|] end. discriminate.
Qed.
