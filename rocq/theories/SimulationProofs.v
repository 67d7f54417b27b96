(** Proofs for C101. *)

From Coq Require Import Reals Lra Lia.
From Coq Require Import List Arith Bool.
From Verif Require Import ShapeModel Sums DirectModel DirectSpec DirectProperties SimulationModel SimulationSpec.
Import ListNotations.
Open Scope R_scope.

Section Proofs.
Context (decompose : decomposition -> nat -> (nat -> nat -> R) -> option (list R -> list R)) (analysable : decomposition -> pattern -> bool) (S : Type) (sys : system S).
Hypothesis Exact : exact_decomposition decompose.
Let mat := system_matrix S sys.
Let move := propagate S sys.

Definition is_conv (v : status) : bool := match v with Converged => true | _ => false end.

(** ** One iteration *)
Lemma factorize_solves d A e : analysis e = Some (pattern_read d A) -> (d <> LU -> symmetric A) -> forall b X, length b = rows A ->
  (exists e', factorize decompose d A e = Done (e', false) /\ decompose d (rows A) (read_by d (value A)) = None /\ analysis e' = Some (pattern_read d A)) \/
  (exists e' dx, factorize decompose d A e = Done (e', true) /\ decompose d (rows A) (read_by d (value A)) <> None /\ analysis e' = Some (pattern_read d A) /\
     DirectModel.solve d e' b X = Done (dx, true) /\ solution A b dx).
Proof.
  intros Ea Sy b X Lb. unfold factorize. rewrite Ea, (proj2 (same_pattern_true _ _) eq_refl).
  destruct (decompose d (rows A) (read_by d (value A))) as [f|] eqn:Ed.
  - right. eexists. exists (f b). split; [reflexivity|]. split; [discriminate|]. split; [reflexivity|]. split; [reflexivity|].
    destruct (Exact d (rows A) _ f Ed b Lb) as [L H]. split; [exact L|]. intros i Hi. rewrite <- (H i Hi). unfold row_times. f_equal. apply map_ext. intros j.
    rewrite (read_symmetric d A Sy). reflexivity.
  - left. eexists. split; [reflexivity|]. split; reflexivity.
Qed.

(** The state of the linear solver fits what the strategy will do next. *)
Definition ready (c : settings S) (d : decomposition) (already : bool) (e : eigen) (s : S) : Prop :=
  match pattern_strategy S c with
  | ALWAYS => True
  | NEVER => False
  | _ => (already = true -> analysis e = Some (pattern_read d (mat s))) /\ forall s dx, pattern_read d (mat (move s dx)) = pattern_read d (mat s)
  end.
Definition kept (c : settings S) (d : decomposition) (already : bool) (e : eigen) (s : S) : Prop :=
  pattern_strategy S c <> ALWAYS -> already = true -> analysis e = Some (pattern_read d (mat s)) /\ analysable d (pattern_read d (mat s)) = true.

Lemma iterate_newton c d : (forall s, length (rhs S sys s) = rows (mat s)) -> (forall s, d <> LU -> symmetric (mat s)) ->
  forall fuel p, verdict S p = Running -> ready c d (already S p) (object S p) (at_state S p) ->
  (pattern_strategy S c <> ALWAYS -> already S p = true -> analysable d (pattern_read d (mat (at_state S p))) = true) ->
  exists p' l, iterate decompose analysable S sys c d fuel p = Done p' /\ increments S p' = increments S p ++ l /\
    newton (can_solve decompose analysable d) sys (tests S c) fuel (increments S p) (at_state S p) l (at_state S p') (is_conv (verdict S p')) /\
    kept c d (already S p') (object S p') (at_state S p').
Proof.
  intros Lr Sy. induction fuel as [|fuel IH]; intros p Vp Rp Kp.
  - exists p, []. cbn [iterate]. split; [reflexivity|]. split; [symmetry; apply app_nil_r|]. rewrite Vp. split; [apply newton_exhausted|].
    intros NA Al. split; [|apply Kp; assumption]. unfold ready in Rp. destruct (pattern_strategy S c); try contradiction; try (apply Rp; exact Al).
  - cbn [iterate]. rewrite Vp. fold mat. set (s := at_state S p) in *. set (A := mat s).
    set (an := must_analyze (pattern_strategy S c) (already S p)).
    assert (Y : (an = true /\ analysable d (pattern_read d A) = false) \/
      exists e, (if an then analyze_pattern analysable d A (object S p) else (object S p, true)) = (e, true) /\ analysis e = Some (pattern_read d A) /\ analysable d (pattern_read d A) = true).
    { destruct an eqn:Ean.
      - unfold analyze_pattern. destruct (analysable d (pattern_read d A)) eqn:Ea; [right|left; split; reflexivity]. eexists. split; [reflexivity|]. split; reflexivity.
      - right. exists (object S p). split; [reflexivity|]. unfold an, must_analyze in Ean. unfold ready in Rp.
        destruct (pattern_strategy S c) eqn:Est; try contradiction; try discriminate; (apply negb_false_iff in Ean; split; [apply Rp; exact Ean|apply Kp; [discriminate|exact Ean] ]). }
    destruct Y as [[Ean Ea]|(e & Ee & Hae & Ha)].
    + rewrite Ean. unfold analyze_pattern. rewrite Ea. cbn [negb]. eexists. exists []. split; [reflexivity|]. cbn [increments verdict at_state already object is_conv].
      split; [symmetry; apply app_nil_r|]. split; [apply newton_unsolvable; intros [C _]; fold mat in C; fold A in C; congruence|].
      intros NA Al. cbn in Al. exfalso. unfold an, must_analyze in Ean. rewrite Al in Ean. destruct (pattern_strategy S c); try discriminate. congruence.
    + rewrite Ee. cbn [negb].
      assert (Kd : forall v s' e', analysis e' = Some (pattern_read d A) -> pattern_read d (mat s') = pattern_read d A \/ pattern_strategy S c = ALWAYS -> kept c d v e' s').
      { intros v s' e' H [E|E] NA _; [|contradiction]. rewrite E. split; assumption. }
      destruct (factorize_solves d A e Hae (Sy s) (rhs S sys s) (last (increments S p) (repeat 0 (rows A))) (Lr s)) as [(e' & Ef & Dn & Ha')|(e' & dx & Ef & Dn & Ha' & Es & Sol)].
      * rewrite Ef. eexists. exists []. split; [reflexivity|]. cbn [increments verdict at_state already object is_conv]. split; [symmetry; apply app_nil_r|].
        split; [apply newton_unsolvable; intros [_ C]; apply C; exact Dn|]. apply Kd; [exact Ha'|left; reflexivity].
      * rewrite Ef, Es. cbn match. fold move. set (s' := move s dx). set (l := increments S p ++ [dx]).
        assert (St : pattern_read d (mat s') = pattern_read d A \/ pattern_strategy S c = ALWAYS).
        { unfold ready in Rp. destruct (pattern_strategy S c); try contradiction; [left; apply Rp|left; apply Rp|right; reflexivity]. }
        assert (Cs : can_solve decompose analysable d (mat s)) by (split; [exact Ha|exact Dn]).
        destruct (tests S c l s') eqn:Et.
        -- destruct (IH (Progress S e' (an || already S p) s' l Running) eq_refl) as (p' & l' & E & Ei & Nw & K).
           { cbn [already object at_state]. unfold ready in *. destruct (pattern_strategy S c) eqn:Est; try contradiction; try exact I; (split; [intros _; destruct St as [St|St]; [rewrite St; exact Ha'|discriminate]|apply Rp]). }
           { cbn [already at_state]. intros NA _. destruct St as [St|St]; [rewrite St; exact Ha|contradiction]. }
           exists p', (dx :: l'). split; [exact E|]. cbn [increments at_state] in *. split; [rewrite Ei; unfold l; rewrite <- app_assoc; reflexivity|]. split; [|exact K].
           eapply newton_next; [exact Cs|exact Sol|exact Et|exact Nw].
        -- exists (Progress S e' (an || already S p) s' l Converged), [dx]. split; [destruct fuel; reflexivity|]. cbn. split; [reflexivity|]. split; [apply newton_converged; [exact Cs|exact Sol|exact Et]|].
           apply Kd; assumption.
        -- exists (Progress S e' (an || already S p) s' l Diverged), [dx]. split; [destruct fuel; reflexivity|]. cbn. split; [reflexivity|]. split; [apply newton_diverged; [exact Cs|exact Sol|exact Et]|].
           apply Kd; assumption.
Qed.

(** ** A step *)
Lemma valid_linked sc k d e : valid_linear_solver S sc = Some (k, (d, e)) <-> l_linear_solver (solver S sc) = Some k /\ nth_error (solvers S sc) k = Some (Some (d, e)).
Proof.
  unfold valid_linear_solver, caribou_solver. destruct (l_linear_solver (solver S sc)) as [j|]; [|split; [discriminate|intros [[=] _] ] ].
  destruct (nth_error (solvers S sc) j) as [[[d' e']|]|] eqn:E; (split; [intros [=]; subst; split; [reflexivity|exact E] || discriminate|intros [[= <-] H]; rewrite E in H; congruence] || idtac).
  all: try (split; [discriminate|]; intros [[= <-] H]; rewrite E in H; congruence).
Qed.
Lemma none_linked sc : valid_linear_solver S sc = None <-> forall d, ~ linked sc d.
Proof.
  split.
  - intros E d (k & e & H). apply valid_linked in H. congruence.
  - intros H. destruct (valid_linear_solver S sc) as [[k [d e]]|] eqn:E; [|reflexivity]. apply valid_linked in E. exfalso. apply (H d). exists k, e. exact E.
Qed.
Lemma nth_set_same {A : Type} (l : list A) : forall k a b, nth_error l k = Some b -> nth_error (set_nth k a l) k = Some a.
Proof. induction l as [|x l IH]; intros [|k] a b H; cbn in *; try discriminate; [reflexivity|]. eapply IH. exact H. Qed.
Lemma nth_set_other {A : Type} (l : list A) : forall k j a, j <> k -> nth_error (set_nth k a l) j = nth_error l j.
Proof. induction l as [|x l IH]; intros [|k] [|j] a H; cbn; try reflexivity; try congruence. apply IH. congruence. Qed.

Lemma step_newton c sc d k e : l_linear_solver (solver S sc) = Some k -> nth_error (solvers S sc) k = Some (Some (d, e)) ->
  (forall s, length (rhs S sys s) = rows (mat s)) -> (forall s, d <> LU -> symmetric (mat s)) ->
  ready c d (match pattern_strategy S c with BEGINNING_OF_THE_TIME_STEP => false | _ => p_has_already_analyzed_the_pattern (solver S sc) end) e (state S sc) ->
  (pattern_strategy S c = BEGINNING_OF_THE_SIMULATION -> p_has_already_analyzed_the_pattern (solver S sc) = true -> analysable d (pattern_read d (mat (state S sc))) = true) ->
  exists sc' l, step decompose analysable S sys c sc = Done (sc', l) /\
    newton_step (can_solve decompose analysable d) sys c (state S sc) l (state S sc') (d_converged (solver S sc')) /\
    l_linear_solver (solver S sc') = Some k /\ (exists e', solvers S sc' = set_nth k (Some (d, e')) (solvers S sc) /\
      (pattern_strategy S c = BEGINNING_OF_THE_SIMULATION -> p_has_already_analyzed_the_pattern (solver S sc') = true ->
        analysis e' = Some (pattern_read d (mat (state S sc'))) /\ analysable d (pattern_read d (mat (state S sc'))) = true)).
Proof.
  intros Hk He Lr Sy Rd Kp. unfold step. rewrite (proj2 (valid_linked sc k d e) (conj Hk He)). unfold newton_step.
  set (al := match pattern_strategy S c with BEGINNING_OF_THE_TIME_STEP => false | _ => p_has_already_analyzed_the_pattern (solver S sc) end) in *.
  assert (Kp' : pattern_strategy S c <> ALWAYS -> al = true -> analysable d (pattern_read d (mat (state S sc))) = true).
  { intros NA Al. unfold ready in Rd. unfold al in Al. destruct (pattern_strategy S c) eqn:Est; try contradiction; try discriminate; try congruence. apply Kp; [reflexivity|exact Al]. }
  destruct (tests S c [] (state S sc)) eqn:Et.
  2:{ exists (Scene S (set_nth k (Some (d, e)) (solvers S sc)) (Ode (Some k) al true) (state S sc)), []. split; [destruct (newton_iterations S c); reflexivity|]. cbn.
      split; [auto|]. split; [reflexivity|]. exists e. split; [reflexivity|]. intros Es Al. unfold ready in Rd. rewrite Es in Rd. split; [apply Rd; exact Al|].
      apply Kp'; [congruence|exact Al]. }
  all: destruct (iterate_newton c d Lr Sy (newton_iterations S c) (Progress S e al (state S sc) [] Running) eq_refl Rd Kp') as (p' & l & E & Ei & Nw & K);
    rewrite E; cbn [increments app] in Ei; rewrite Ei; eexists; exists l; (split; [reflexivity|]); cbn [state d_converged solver l_linear_solver solvers p_has_already_analyzed_the_pattern];
    (split; [exact Nw|]); (split; [reflexivity|]); exists (object S p'); (split; [reflexivity|]); intros Es Al; (apply K; [congruence|exact Al]).
Qed.

(** ** Histories *)
Definition same_kinds (sc sc' : scene S) : Prop := forall k d e, nth_error (solvers S sc') k = Some (Some (d, e)) -> exists e', nth_error (solvers S sc) k = Some (Some (d, e')).
Lemma same_kinds_set sc k d e e' o s : nth_error (solvers S sc) k = Some (Some (d, e)) -> same_kinds sc (Scene S (set_nth k (Some (d, e')) (solvers S sc)) o s).
Proof.
  intros H j d' e'' Hj. cbn in Hj. destruct (Nat.eq_dec j k) as [->|N].
  - rewrite (nth_set_same _ _ _ _ H) in Hj. injection Hj as <- <-. exists e. exact H.
  - rewrite nth_set_other in Hj by exact N. exists e''. exact Hj.
Qed.
Lemma well_posed_kinds sc sc' : same_kinds sc sc' -> well_posed sys sc -> well_posed sys sc'.
Proof.
  intros K W s. destruct (W s) as [L [Y|Y] ]; (split; [exact L|]); [left; exact Y|right]. intros k d e H. destruct (K k d e H) as (e' & H'). exact (Y k d e' H').
Qed.
Lemma well_posed_for sc k d e : well_posed sys sc -> nth_error (solvers S sc) k = Some (Some (d, e)) ->
  (forall s, length (rhs S sys s) = rows (mat s)) /\ (forall s, d <> LU -> symmetric (mat s)).
Proof.
  intros W H. split; intros s; destruct (W s) as [L Y]; [exact L|]. intros N. destruct Y as [Y|Y]; [exact Y|]. exfalso. exact (N (Y k d e H)).
Qed.
Lemma elsewhere_kinds sc k A : same_kinds sc (elsewhere decompose analysable S k A sc).
Proof.
  unfold elsewhere, caribou_solver. destruct (nth_error (solvers S sc) k) as [[[d e]|]|] eqn:E; try (intros j d' e' H; exists e'; exact H).
  eapply same_kinds_set. exact E.
Qed.
Lemma elsewhere_rest sc k A : state S (elsewhere decompose analysable S k A sc) = state S sc /\ solver S (elsewhere decompose analysable S k A sc) = solver S sc.
Proof. unfold elsewhere. destruct (caribou_solver S sc k) as [[d e]|]; split; reflexivity. Qed.

(** A step in a scene where it is ready, if there is a linear solver. *)
Lemma step_right c sc : well_posed sys sc ->
  (forall k d e, l_linear_solver (solver S sc) = Some k -> nth_error (solvers S sc) k = Some (Some (d, e)) ->
     ready c d (match pattern_strategy S c with BEGINNING_OF_THE_TIME_STEP => false | _ => p_has_already_analyzed_the_pattern (solver S sc) end) e (state S sc) /\
     (pattern_strategy S c = BEGINNING_OF_THE_SIMULATION -> p_has_already_analyzed_the_pattern (solver S sc) = true -> analysable d (pattern_read d (mat (state S sc))) = true)) ->
  exists sc' l, step decompose analysable S sys c sc = Done (sc', l) /\ event_right decompose analysable sys (Step S c) sc sc' l /\ same_kinds sc sc' /\
    l_linear_solver (solver S sc') = l_linear_solver (solver S sc) /\
    (pattern_strategy S c = BEGINNING_OF_THE_SIMULATION -> forall k d e, l_linear_solver (solver S sc') = Some k -> nth_error (solvers S sc') k = Some (Some (d, e)) ->
       p_has_already_analyzed_the_pattern (solver S sc') = true -> analysis e = Some (pattern_read d (mat (state S sc'))) /\ analysable d (pattern_read d (mat (state S sc'))) = true).
Proof.
  intros W H. destruct (valid_linear_solver S sc) as [[k [d e] ]|] eqn:V.
  - apply valid_linked in V. destruct V as [Hk He]. destruct (well_posed_for sc k d e W He) as [Lr Sy]. destruct (H k d e Hk He) as [Rd Ka].
    destruct (step_newton c sc d k e Hk He Lr Sy Rd Ka) as (sc' & l & E & Nw & Hk' & e' & Es & Pk).
    exists sc', l. split; [exact E|]. split; [|split; [|split] ].
    + split; [cbn [link_right]; congruence|]. split.
      * intros d' (k' & e'' & Hk2 & He2). rewrite Hk in Hk2. injection Hk2 as <-. rewrite He in He2. injection He2 as <- <-. exact Nw.
      * intros C. exfalso. apply (C d). exists k, e. split; assumption.
    + destruct sc' as [sv o st]. cbn in Es. subst sv. eapply same_kinds_set. exact He.
    + congruence.
    + intros Est k' d' e'' Hk2 He2 Al. rewrite Hk' in Hk2. injection Hk2 as <-. rewrite Es, (nth_set_same _ _ _ _ He) in He2. injection He2 as <- <-. exact (Pk Est Al).
  - exists sc, []. pose proof (proj1 (none_linked sc) V) as NL. unfold step. rewrite V. split; [reflexivity|]. split; [|split; [|split; [reflexivity|] ] ].
    + split; [reflexivity|]. split; [intros d L; exfalso; exact (NL d L)|intros _; split; reflexivity].
    + intros k d e He. exists e. exact He.
    + intros _ k d e Hk He _. exfalso. apply (NL d). exists k, e. split; assumption.
Qed.

(** Histories in which each step is ready whatever happened. *)
Lemma run_right : (forall (c : settings S) d b e s, pattern_strategy S c = ALWAYS \/ (pattern_strategy S c = BEGINNING_OF_THE_TIME_STEP /\ forall s dx, positions (mat (move s dx)) = positions (mat s)) ->
    (pattern_strategy S c = BEGINNING_OF_THE_TIME_STEP -> b = false) -> ready c d b e s) -> forall h sc, well_posed sys sc ->
  (strategy_of ALWAYS h \/ (strategy_of BEGINNING_OF_THE_TIME_STEP h /\ forall s dx, positions (mat (move s dx)) = positions (mat s))) ->
  exists trace, run decompose analysable S sys h sc = Done trace /\ history_right decompose analysable sys sc h trace.
Proof.
  intros Rd. induction h as [|ev h IH]; intros sc W St; [exists []; split; [reflexivity|exact I]|].
  assert (St' : strategy_of ALWAYS h \/ (strategy_of BEGINNING_OF_THE_TIME_STEP h /\ forall s dx, positions (mat (move s dx)) = positions (mat s))).
  { destruct St as [St|[St P] ]; apply Forall_cons_iff in St; [left; apply St|right; split; [apply St|exact P] ]. }
  assert (X : exists sc' l, run_event decompose analysable S sys ev sc = Done (sc', l) /\ event_right decompose analysable sys ev sc sc' l /\ same_kinds sc sc').
  { destruct ev as [node| |k|c|k A].
    1-3: eexists; exists []; (split; [reflexivity|]); (split; [split; [first [exact I|reflexivity]|split; reflexivity]|]); intros j d e Hj; exists e; exact Hj.
    - destruct (step_right c sc W) as (sc' & l & E & R & K & _).
      + intros k d e _ _. assert (Sc : pattern_strategy S c = ALWAYS \/ (pattern_strategy S c = BEGINNING_OF_THE_TIME_STEP /\ forall s dx, positions (mat (move s dx)) = positions (mat s))).
        { destruct St as [St|[St P] ]; apply Forall_cons_iff in St; [left; apply St|right; split; [apply St|exact P] ]. }
        split; [apply Rd; [exact Sc|intros ->; reflexivity]|]. intros C. destruct Sc as [Sc|[Sc _] ]; congruence.
      + exists sc', l. split; [exact E|]. split; assumption.
    - eexists. exists []. split; [reflexivity|]. split; [split; [cbn [link_right]; rewrite (proj2 (elsewhere_rest sc k A)); reflexivity|split; [reflexivity|apply elsewhere_rest] ]|apply elsewhere_kinds]. }
  destruct X as (sc' & l & E & R & K). destruct (IH sc' (well_posed_kinds _ _ K W) St') as (tr & Et & Ht).
  exists ((sc', l) :: tr). cbn [run]. rewrite E. cbn [fst]. rewrite Et. split; [reflexivity|]. split; assumption.
Qed.
Lemma positions_read d A B : positions A = positions B -> pattern_read d A = pattern_read d B.
Proof. unfold positions, pattern_read. intros H. injection H as H1 H2. rewrite H1, H2. reflexivity. Qed.
Lemma free_ready (c : settings S) d b e s : pattern_strategy S c = ALWAYS \/ (pattern_strategy S c = BEGINNING_OF_THE_TIME_STEP /\ forall s dx, positions (mat (move s dx)) = positions (mat s)) ->
  (pattern_strategy S c = BEGINNING_OF_THE_TIME_STEP -> b = false) -> ready c d b e s.
Proof.
  intros [E|[E P] ] B; unfold ready; rewrite E; [exact I|]. split; [intros C; rewrite (B E) in C; discriminate|]. intros s' dx. apply positions_read, P.
Qed.

(** Histories with one analysis. *)
Definition analysed (P : nat * list (nat * nat)) (sc : scene S) : Prop :=
  p_has_already_analyzed_the_pattern (solver S sc) = true -> forall k d e, l_linear_solver (solver S sc) = Some k -> nth_error (solvers S sc) k = Some (Some (d, e)) ->
    forall A, positions A = P -> analysis e = Some (pattern_read d A) /\ analysable d (pattern_read d A) = true.
Lemma run_once P h : (forall s, positions (mat s) = P) -> (forall k A, In (Elsewhere S k A) h -> positions A = P) -> strategy_of BEGINNING_OF_THE_SIMULATION h ->
  forall changed sc, initialised_after_links changed h -> well_posed sys sc -> (changed = false -> analysed P sc) ->
  exists trace, run decompose analysable S sys h sc = Done trace /\ history_right decompose analysable sys sc h trace.
Proof.
  intros Hm. induction h as [|ev h IH]; intros He St changed sc Ia W An; [exists []; split; [reflexivity|exact I]|].
  apply Forall_cons_iff in St. destruct St as [Sev St].
  assert (X : exists sc' l changed', run_event decompose analysable S sys ev sc = Done (sc', l) /\ event_right decompose analysable sys ev sc sc' l /\ same_kinds sc sc' /\
    initialised_after_links changed' h /\ (changed' = false -> analysed P sc')).
  { destruct ev as [node| |k|c|k A].
    - eexists. exists [], false. split; [reflexivity|]. split; [split; [first [exact I|reflexivity]|split; reflexivity]|]. split; [intros j d e Hj; exists e; exact Hj|]. split; [exact Ia|]. intros _ C. discriminate.
    - eexists. exists [], false. split; [reflexivity|]. split; [split; [first [exact I|reflexivity]|split; reflexivity]|]. split; [intros j d e Hj; exists e; exact Hj|]. split; [exact Ia|]. intros _ C. discriminate.
    - eexists. exists [], true. split; [reflexivity|]. split; [split; [first [exact I|reflexivity]|split; reflexivity]|]. split; [intros j d e Hj; exists e; exact Hj|]. split; [exact Ia|]. discriminate.
    - cbn [initialised_after_links] in Ia. destruct Ia as [-> Ia]. specialize (An eq_refl). destruct (step_right c sc W) as (sc' & l & E & R & K & Lk & Pk).
      + intros k d e Hk Hd. unfold ready. rewrite Sev. split; [|intros _ Al; apply (An Al k d e Hk Hd), Hm].
        split; [intros Al; apply (An Al k d e Hk Hd), Hm|]. intros s dx. apply positions_read. rewrite !Hm. reflexivity.
      + exists sc', l, false. split; [exact E|]. split; [exact R|]. split; [exact K|]. split; [exact Ia|]. intros _ Al k d e Hk Hd A HA.
        rewrite (positions_read d A (mat (state S sc'))) by (rewrite Hm; exact HA). exact (Pk Sev k d e Hk Hd Al).
    - exists (elsewhere decompose analysable S k A sc), [], changed. split; [reflexivity|]. split; [split; [cbn [link_right]; rewrite (proj2 (elsewhere_rest sc k A)); reflexivity|split; [reflexivity|apply elsewhere_rest] ]|]. split; [apply elsewhere_kinds|].
      split; [exact Ia|]. intros Ch Al j d e Hj Hd B HB. destruct (elsewhere_rest sc k A) as [_ Eo]. rewrite Eo in Al, Hj.
      assert (PA : positions A = P) by (apply (He k); left; reflexivity).
      unfold elsewhere, caribou_solver in Hd. destruct (nth_error (solvers S sc) k) as [[[d0 e0]|]|] eqn:Ek; try exact (An Ch Al j d e Hj Hd B HB).
      cbn [solvers] in Hd. destruct (Nat.eq_dec j k) as [->|N]; [|rewrite nth_set_other in Hd by exact N; exact (An Ch Al j d e Hj Hd B HB)].
      destruct (An Ch Al k d0 e0 Hj Ek B HB) as [_ Ab]. rewrite (nth_set_same _ _ _ _ Ek) in Hd. injection Hd as <- Hd.
      assert (EAB : pattern_read d0 A = pattern_read d0 B) by (apply positions_read; congruence). unfold analyze_pattern, factorize in Hd. rewrite EAB, Ab in Hd. cbn [fst analysis] in Hd.
      rewrite (proj2 (same_pattern_true _ _) eq_refl) in Hd. subst e. split; [reflexivity|exact Ab]. }
  destruct X as (sc' & l & ch & E & R & K & Ia' & An'). destruct (IH (fun k A H => He k A (or_intror H)) St ch sc' Ia' (well_posed_kinds _ _ K W) An') as (tr & Et & Ht).
  exists ((sc', l) :: tr). cbn [run]. rewrite E. cbn [fst]. rewrite Et. split; [reflexivity|]. split; assumption.
Qed.
End Proofs.
