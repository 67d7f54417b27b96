(** C76: the topology component over any history of changes of its data, attached domains and initialisations. *)

From Coq Require Import List Arith Bool Lia.
From Verif Require Import TopologyModel.
Import ListNotations.

(** ** Specification vocabulary: what positions and indices describe *)

(** Every index of every element is that of a position. *)
Definition valid_indices {P} (pos : list P) (idx : list (list nat)) : Prop := forall l i, In l idx -> In i l -> i < length pos.
(** The component has one element per list of indices, and the nodes of each are the positions at these indices. *)
Definition shows {P} (t : topology P) (pos : list P) (idx : list (list nat)) : Prop :=
  number_of_elements P t = length idx /\
  forall e l, nth_error idx e = Some l -> element_indices P t e = Value l /\
    exists pts, element P t e = Value pts /\ Forall2 (fun i p => nth_error pos i = Some p) l pts.

(** ** Lemmas *)

Lemma gather_spec : forall P (pos : list P) l, (forall i, In i l -> i < length pos) ->
  exists pts, gather P pos l = Value pts /\ Forall2 (fun i p => nth_error pos i = Some p) l pts.
Proof.
  intros P pos. induction l as [|i l IH]; intros H; [exists []; split; [reflexivity|constructor]|].
  destruct IH as (pts & E & F); [intros j Hj; apply H; right; exact Hj|].
  destruct (nth_error pos i) as [p|] eqn:Ei; [|apply nth_error_None in Ei; specialize (H i (or_introl eq_refl)); lia].
  exists (p :: pts). cbn. rewrite Ei, E. split; [reflexivity|]. constructor; assumption.
Qed.
Lemma shown_length : forall P (pos : list P) l pts, Forall2 (fun i p => nth_error pos i = Some p) l pts -> length l = length pts.
Proof. intros P pos l pts F. induction F; cbn; congruence. Qed.
Lemma no_invalid : forall P (pos : list P) idx,
  0 <? length (filter (existsb (fun i => length pos <=? i)) idx) = false <-> valid_indices pos idx.
Proof.
  intros P pos idx. rewrite Nat.ltb_ge. split.
  - intros H l i Hl Hi. destruct (Nat.lt_ge_cases i (length pos)) as [|C]; [assumption|]. exfalso.
    assert (I : In l (filter (existsb (fun i => length pos <=? i)) idx)).
    { apply filter_In. split; [exact Hl|]. apply existsb_exists. exists i. split; [exact Hi|]. apply Nat.leb_le, C. }
    destruct (filter _ idx); [destruct I|cbn in H; lia].
  - intros H. destruct (filter _ idx) as [|l r] eqn:E; [cbn; lia|]. exfalso.
    assert (I : In l (filter (existsb (fun i => length pos <=? i)) idx)) by (rewrite E; left; reflexivity).
    apply filter_In in I. destruct I as [I X]. apply existsb_exists in X. destruct X as (i & Hi & L). apply Nat.leb_le in L. specialize (H l i I Hi). lia.
Qed.
Lemma assign_content : forall l b, content (assign l b) = l.
Proof. intros l b. unfold assign. destruct (length l <=? capacity b); reflexivity. Qed.

(** The positions an initialisation uses. *)
Definition positions_used {P} (state : option (list P)) (t : topology P) : list P :=
  if position_is_set P t then d_position P t else match state with Some x => x | None => d_position P t end.

Lemma init_spec : forall P state (t : topology P), indices_is_set P t = true -> content (d_indices P t) <> [] ->
  let pos := positions_used state t in
  (pos <> [] /\ valid_indices pos (content (d_indices P t)) ->
     p_domain P (init P state t) = Some (Internal P pos (address (d_indices P t)) (length (content (d_indices P t))))) /\
  (~ (pos <> [] /\ valid_indices pos (content (d_indices P t))) -> p_domain P (init P state t) = p_domain P t) /\
  d_indices P (init P state t) = d_indices P t.
Proof.
  intros P state t Hs Hc. cbv zeta. unfold init. rewrite Hs.
  assert (Hl : Nat.eqb (length (content (d_indices P t))) 0 = false) by (apply Nat.eqb_neq; destruct (content (d_indices P t)); [congruence|discriminate]).
  set (t' := match state with Some x => _ | None => t end).
  assert (E : d_position P t' = positions_used state t /\ d_indices P t' = d_indices P t /\ p_domain P t' = p_domain P t).
  { unfold t', positions_used. destruct state as [x|]; [|destruct (position_is_set P t); auto]. rewrite Hl. cbn [negb andb].
    destruct (position_is_set P t); cbn; auto. }
  destruct E as (E1 & E2 & E3). unfold initializeFromIndices. rewrite E1, E2, Hl.
  destruct (Nat.eqb_spec (length (positions_used state t)) 0) as [Z|Z].
  - split; [|split; [intros _; exact E3|exact E2]]. intros [C _]. apply length_zero_iff_nil in Z. contradiction.
  - pose proof (no_invalid P (positions_used state t) (content (d_indices P t))) as NI.
    destruct (0 <? length (filter _ (content (d_indices P t)))).
    + split; [|split; [intros _; exact E3|exact E2]]. intros [_ C]. apply NI in C. discriminate.
    + cbn. split; [intros _; reflexivity|]. split; [|reflexivity]. intros C. exfalso. apply C. split; [intros Q; apply Z; rewrite Q; reflexivity|apply NI; reflexivity].
Qed.
Lemma internal_shows : forall P (t : topology P) pos, content (d_indices P t) <> [] ->
  p_domain P t = Some (Internal P pos (address (d_indices P t)) (length (content (d_indices P t)))) ->
  valid_indices pos (content (d_indices P t)) -> shows t pos (content (d_indices P t)).
Proof.
  intros P t pos Hc E V. split; [unfold number_of_elements; rewrite E; reflexivity|]. intros e l Hl.
  assert (Le : e < length (content (d_indices P t))) by (apply nth_error_Some; congruence).
  assert (EI : element_indices P t e = Value l).
  { unfold element_indices. rewrite E, Nat.eqb_refl. destruct (Nat.ltb_spec e (length (content (d_indices P t)))) as [_|C]; [|lia].
    cbn [andb]. rewrite Hl. reflexivity. }
  split; [exact EI|]. unfold element. rewrite E, EI. apply gather_spec. intros i Hi. apply (V l i); [eapply nth_error_In; exact Hl|exact Hi].
Qed.

(** ** Theorems *)

(** A successful initialisation shows the current indices at the current positions (the rest position of the mechanical state if no position was set),
    whatever happened before and whatever domain was there. *)
Theorem C76_init : forall P h state (idx : list (list nat)), 
  let t := run P h (initial_topology P) in
  let pos := positions_used state t in
  indices_is_set P t = true -> content (d_indices P t) = idx -> idx <> [] -> pos <> [] -> valid_indices pos idx ->
  shows (init P state t) pos idx.
Proof.
  intros P h state idx t pos Hs E Hi Hp V. subst idx.
  destruct (init_spec P state t Hs Hi) as (A & _ & C). specialize (A (conj Hp V)). rewrite <- C in A, V, Hi |- *. apply internal_shows; assumption.
Qed.
Print Assumptions C76_init.

(** An attached domain is shown as it is, its indices are those of the component's data, and an initialisation keeps it unless it finds positions. *)
Theorem C76_attached : forall P h (els : list (list nat)) (nodes : list P), valid_indices nodes els ->
  let t := attachDomain P els nodes (run P h (initial_topology P)) in
  shows t nodes els /\ content (d_indices P t) = els /\
  (forall state, positions_used state t = [] -> shows (init P state t) nodes els) /\
  (forall state, els <> [] -> positions_used state t <> [] -> valid_indices (positions_used state t) els -> shows (init P state t) (positions_used state t) els).
Proof.
  intros P h els nodes V. set (t0 := run P h (initial_topology P)). cbv zeta. set (t := attachDomain P els nodes t0).
  assert (G : forall t', p_domain P t' = Some (Attached P els nodes) -> shows t' nodes els).
  { intros t' E. split; [unfold number_of_elements; rewrite E; reflexivity|]. intros e l Hl.
    assert (EI : element_indices P t' e = Value l) by (unfold element_indices; rewrite E, Hl; reflexivity).
    split; [exact EI|]. unfold element. rewrite E, EI. apply gather_spec. intros i Hi. apply (V l i); [eapply nth_error_In; exact Hl|exact Hi]. }
  assert (C : content (d_indices P t) = els) by (unfold t; cbn; apply assign_content).
  split; [apply G; reflexivity|]. split; [exact C|]. split.
  - intros state Hp. destruct els as [|l r].
    + apply G. unfold init. cbn [indices_is_set t attachDomain]. rewrite C. cbn [length Nat.eqb negb andb].
      assert (Q : forall u, content (d_indices P u) = [] -> initializeFromIndices P u = u) by (intros u Hu; unfold initializeFromIndices; rewrite Hu; reflexivity).
      destruct state as [x|]; rewrite (Q _ C); reflexivity.
    + destruct (init_spec P state t eq_refl) as (_ & B & _); [rewrite C; discriminate|]. apply G. rewrite B; [reflexivity|]. intros [N _]. contradiction.
  - intros state He Hp Hv. destruct (init_spec P state t eq_refl) as (A & _ & D); [rewrite C; exact He|]. rewrite C in A. specialize (A (conj Hp Hv)).
    pose proof (internal_shows P (init P state t) (positions_used state t)) as I. rewrite D, C in I. apply I; assumption.
Qed.
Print Assumptions C76_attached.

(** The positions are copied: setting them later changes no element. *)
Theorem C76_positions_copied : forall P l (t : topology P) e, 
  element P (set_position P l t) e = element P t e /\ element_indices P (set_position P l t) e = element_indices P t e /\
  number_of_elements P (set_position P l t) = number_of_elements P t.
Proof. intros P l t e. split; [|split]; reflexivity. Qed.
Print Assumptions C76_positions_copied.

(** An event that sets the indices under an internal domain. *)
Definition edits_under {P} (t : topology P) (ev : event P) : bool :=
  match ev, p_domain P t with SetIndices _ _, Some (Internal _ _ _ _) => true | _, _ => false end.
Fixpoint never_edited {P} (h : list (event P)) (t : topology P) : Prop :=
  match h with [] => True | ev :: h => edits_under t ev = false /\ never_edited h (apply P ev t) end.
(** The attached domains of the history are valid. *)
Definition valid_attached {P} (h : list (event P)) : Prop := forall els nodes, In (Attach P els nodes) h -> valid_indices nodes els.

(** In every history in which the indices are not set again while the internal domain refers to them, every element can be read.
    Missing: the other histories (below). *)
Theorem C76_readable_partial : forall P (h : list (event P)), valid_attached h -> never_edited h (initial_topology P) ->
  let t := run P h (initial_topology P) in
  forall e, e < number_of_elements P t -> exists l pts, element_indices P t e = Value l /\ element P t e = Value pts /\ length pts = length l.
Proof.
  intros P h.
  assert (G : forall h (t : topology P), valid_attached h -> never_edited h t ->
    (match p_domain P t with
     | None => True
     | Some (Attached _ els nodes) => valid_indices nodes els
     | Some (Internal _ nodes w n) => w = address (d_indices P t) /\ n = length (content (d_indices P t)) /\ valid_indices nodes (content (d_indices P t))
     end) ->
    match p_domain P (run P h t) with
     | None => True
     | Some (Attached _ els nodes) => valid_indices nodes els
     | Some (Internal _ nodes w n) => w = address (d_indices P (run P h t)) /\ n = length (content (d_indices P (run P h t))) /\
                                      valid_indices nodes (content (d_indices P (run P h t)))
     end).
  { clear h. induction h as [|ev h IH]; intros t VA NE I; [exact I|]. cbn [run fold_left]. change (fold_left (fun t e => apply P e t) h (apply P ev t)) with (run P h (apply P ev t)).
    cbn [never_edited] in NE. destruct NE as [N0 NE]. apply IH; [intros els nodes HI; apply VA; right; exact HI|exact NE|].
    destruct ev as [l|l|els nodes|state]; cbn [apply].
    - exact I.
    - unfold edits_under in N0. cbn [set_indices p_domain]. destruct (p_domain P t) as [[]|]; [exact I|discriminate|exact I].
    - cbn. apply VA. left. reflexivity.
    - destruct (indices_is_set P t) eqn:Es; [|unfold init; rewrite Es; exact I].
      destruct (content (d_indices P t)) as [|l0 r0] eqn:Ec.
      + assert (Q : p_domain P (init P state t) = p_domain P t /\ d_indices P (init P state t) = d_indices P t).
        { unfold init. rewrite Es, Ec. cbn [length Nat.eqb negb andb].
          assert (Q : forall u, content (d_indices P u) = [] -> initializeFromIndices P u = u) by (intros u Hu; unfold initializeFromIndices; rewrite Hu; reflexivity).
          destruct state as [x|]; rewrite (Q _ Ec); split; reflexivity. }
        destruct Q as [Q1 Q2]. rewrite Q1, Q2, Ec. exact I.
      + destruct (init_spec P state t Es) as (A & B & D); [rewrite Ec; discriminate|]. rewrite D, Ec in *.
        destruct (Nat.eqb_spec (length (positions_used state t)) 0) as [Z|Z].
        * apply length_zero_iff_nil in Z. rewrite B by (intros [C _]; contradiction). exact I.
        * destruct (0 <? length (filter (existsb (fun i => length (positions_used state t) <=? i)) (l0 :: r0))) eqn:F.
          -- rewrite B; [exact I|]. intros [_ C]. apply no_invalid in C. congruence.
          -- apply no_invalid in F. rewrite A; [auto|]. split; [intros C; apply Z; rewrite C; reflexivity|exact F]. }
  intros VA NE. cbv zeta. specialize (G h (initial_topology P) VA NE Logic.I).
  set (t := run P h (initial_topology P)) in *. intros e He. unfold number_of_elements in He.
  destruct (p_domain P t) as [[els nodes|nodes w n]|] eqn:E; [| |lia].
  - destruct (nth_error els e) as [l|] eqn:El; [|apply nth_error_None in El; lia].
    assert (EI : element_indices P t e = Value l) by (unfold element_indices; rewrite E, El; reflexivity).
    destruct (gather_spec P nodes l) as (pts & Eg & F); [intros i Hi; apply (G l i); [eapply nth_error_In; exact El|exact Hi]|].
    exists l, pts. split; [exact EI|]. split; [unfold element; rewrite E, EI; exact Eg|]. symmetry. apply (shown_length P nodes l pts F).
  - destruct G as (-> & -> & V). destruct (nth_error (content (d_indices P t)) e) as [l|] eqn:El; [|apply nth_error_None in El; lia].
    assert (EI : element_indices P t e = Value l).
    { unfold element_indices. rewrite E, Nat.eqb_refl. destruct (Nat.ltb_spec e (length (content (d_indices P t)))) as [_|C]; [|lia]. cbn [andb]. rewrite El. reflexivity. }
    destruct (gather_spec P nodes l) as (pts & Eg & F); [intros i Hi; apply (V l i); [eapply nth_error_In; exact El|exact Hi]|].
    exists l, pts. split; [exact EI|]. split; [unfold element; rewrite E, EI; exact Eg|]. symmetry. apply (shown_length P nodes l pts F).
Qed.
Print Assumptions C76_readable_partial.

(** ** Setting the indices again *)

(** With more elements than the vector can hold, no element of the initialised component can be read any more. *)
Theorem C76_moved_indices_refuted : forall P (t : topology P) nodes n l, 
  p_domain P t = Some (Internal P nodes (address (d_indices P t)) n) -> capacity (d_indices P t) < length l ->
  number_of_elements P (set_indices P l t) = n /\ forall e, element P (set_indices P l t) e = Undefined_behaviour.
Proof.
  intros P t nodes n l E Hl.
  assert (Ea : address (assign l (d_indices P t)) = S (address (d_indices P t))) by (unfold assign; destruct (Nat.leb_spec (length l) (capacity (d_indices P t))); [lia|reflexivity]).
  split; [unfold number_of_elements; cbn; rewrite E; reflexivity|]. intros e. unfold element, element_indices. cbn [p_domain set_indices d_indices]. rewrite E, Ea.
  destruct (Nat.eqb_spec (address (d_indices P t)) (S (address (d_indices P t)))) as [C|_]; [lia|]. reflexivity.
Qed.
Print Assumptions C76_moved_indices_refuted.

(** Indices of nodes that do not exist, set after a successful initialisation: the next initialisation rejects them, and the elements
    refer to them all the same. *)
Theorem C76_rejected_indices_refuted : forall P (t : topology P) nodes n l e le i state,
  p_domain P t = Some (Internal P nodes (address (d_indices P t)) n) -> length l <= capacity (d_indices P t) ->
  e < n -> nth_error l e = Some le -> In i le -> length nodes <= i -> length (positions_used state t) <= i ->
  let t' := init P state (set_indices P l t) in
  p_domain P t' = p_domain P t /\ element_indices P t' e = Value le /\ element P t' e = Undefined_behaviour.
Proof.
  intros P t nodes n l e le i state E Hl He Ee Hi Hn Hp. cbv zeta. set (t1 := set_indices P l t).
  assert (Ec : content (d_indices P t1) = l) by (cbn; apply assign_content).
  assert (Ea : address (d_indices P t1) = address (d_indices P t)) by (cbn; unfold assign; destruct (Nat.leb_spec (length l) (capacity (d_indices P t))); [reflexivity|lia]).
  assert (Ep : positions_used state t1 = positions_used state t) by reflexivity.
  destruct (init_spec P state t1 eq_refl) as (_ & B & C); [rewrite Ec; destruct l; [destruct e; discriminate|discriminate]|].
  assert (D : p_domain P (init P state t1) = p_domain P t).
  { rewrite B; [reflexivity|]. rewrite Ep, Ec. intros [_ V]. specialize (V le i (nth_error_In _ _ Ee) Hi). lia. }
  split; [exact D|].
  assert (EI : element_indices P (init P state t1) e = Value le).
  { unfold element_indices. rewrite D, E, C, Ea, Nat.eqb_refl, Ec. destruct (Nat.ltb_spec e n) as [_|]; [|lia]. cbn [andb]. rewrite Ee. reflexivity. }
  split; [exact EI|]. unfold element. rewrite D, E, EI. clear -Hi Hn. induction le as [|j le IH]; [destruct Hi|]. cbn.
  destruct Hi as [->|Hi].
  - apply nth_error_None in Hn. rewrite Hn. reflexivity.
  - rewrite (IH Hi). destruct (nth_error nodes j); reflexivity.
Qed.
Print Assumptions C76_rejected_indices_refuted.

(** ** Cases *)

Example C76_case : 
  let h := [SetPosition nat [10; 11; 12; 13]; SetIndices nat [[0; 1; 2]; [1; 2; 3]]; Init nat None; SetPosition nat [20; 21; 22; 23]] in
  let t := run nat h (initial_topology nat) in
  number_of_elements nat t = 2 /\ element nat t 1 = Value [11; 12; 13] /\ element nat (init nat None t) 1 = Value [21; 22; 23] /\
  (* refused and used *)
  element nat (init nat None (set_indices nat [[0; 1; 9]; [1; 2; 3]] t)) 0 = Undefined_behaviour /\
  element nat (set_indices nat [[0; 1; 2]; [0; 1; 2]; [0; 1; 2]] t) 0 = Undefined_behaviour.
Proof. repeat split. Qed.
Example C76_hypotheses : let h := [SetPosition nat [10; 11; 12; 13]; SetIndices nat [[0; 1; 2]; [1; 2; 3]]; Init nat None; Attach nat [[0; 1; 0]] [5; 6]; SetIndices nat [[0; 1; 3]]; Init nat None] in
  valid_attached h /\ never_edited h (initial_topology nat) /\ element nat (run nat h (initial_topology nat)) 0 = Value [10; 11; 13].
Proof.
  cbv zeta. split; [|split; [repeat split|reflexivity]].
  intros els nodes H. cbn in H. repeat (destruct H as [H|H]; [inversion H; subst|]); [|destruct H].
  intros l i [<-|[]] Hi. cbn in *. lia.
Qed.
