(** Lemmas on the hash grids used from Python. *)

From Coq Require Import String ZArith Reals Lra Lia List Arith Bool.
From Flocq Require Import Core.Raux.
From Verif Require Import GridModel GridSpec GridGeoModel GridGeoSpec GridMachModel GridMachProofs GridProofs GridGeoProofs
  HashGridModel HashGridProofs PyGridModel PyGridSpec PyGridProofs PyGridProofs2 PyGridProofs3 PyGridProofs4.
Import ListNotations.
Open Scope nat_scope.

Lemma load_element : forall conv c nodes, load conv (PElement c) (VElement c nodes) = Some (LElement nodes).
Proof. intros conv [] nodes; reflexivity. Qed.
Lemma load_element_inv : forall conv c v x, load conv (PElement c) v = Some x -> exists nodes, v = VElement c nodes /\ x = LElement nodes.
Proof.
  intros conv c v x. destruct v as [z|x'|b| |d l|l|l|c' nodes|c'|]; cbn; try discriminate.
  intros H. exists nodes. destruct c, c'; try discriminate; injection H as <-; split; reflexivity.
Qed.
Lemma load_unsigned_stands : forall w x, load true PUnsigned w = Some x <-> exists id, x = LUnsigned id /\ stands_for w id /\ (0 <= id < 2 ^ 64)%Z.
Proof.
  intros w x. cbn [load]. split.
  - destruct (as_integer true w) as [z|] eqn:E; [|discriminate]. cbn [within]. unfold uint64_range.
    destruct ((0 <=? z)%Z && (z <? 2 ^ 64)%Z) eqn:B; [|discriminate]. cbn [option_map]. intros H. injection H as <-. exists z. split; [reflexivity|].
    apply andb_true_iff in B. destruct B as [B1 B2]. apply Z.leb_le in B1. apply Z.ltb_lt in B2. split; [|lia].
    destruct w as [z'|x'|[]| |d [|y [|]]|l|l|c' nodes|c'|]; cbn in E; try discriminate; injection E as <-; constructor.
  - intros (id & -> & S & B). assert (E : as_integer true w = Some id) by (destruct S; reflexivity). rewrite E. cbn [within]. unfold uint64_range.
    rewrite (proj2 (Z.leb_le _ _)), (proj2 (Z.ltb_lt _ _)) by lia. reflexivity.
Qed.
Lemma hash_add_spec : forall h vs h', hash_add h vs = Some h' <->
  exists nodes id, adds_element (element_class h) nodes id vs /\
    h' = {| element_class := element_class h; cell_size := cell_size h; contents := add (cell_size h) (contents h) nodes id |}.
Proof.
  intros h vs h'. unfold hash_add, adds_element.
  assert (X : forall l, match load_all false [PElement (element_class h); PUnsigned] [] vs with
                    | Some l => Some l | None => load_all true [PElement (element_class h); PUnsigned] [] vs end = Some l <->
                  load_all true [PElement (element_class h); PUnsigned] [] vs = Some l).
  { intros l. split; [|apply load_all_convert]. destruct (load_all false _ [] vs) eqn:E; [|exact (fun H => H)].
    apply load_all_mono in E. intros H. injection H as <-. exact E. }
  split.
  - intros H. destruct (match load_all false _ [] vs with Some l => Some l | None => _ end) as [l|] eqn:E; [|discriminate].
    specialize (proj1 (X _) eq_refl) as E'. clear X E. rename E' into E. destruct vs as [|v [|w [|]]]; cbn [load_all] in E; try discriminate.
    + destruct (load true (PElement _) v); discriminate.
    + destruct (load true (PElement (element_class h)) v) as [x|] eqn:E1; [|discriminate]. destruct (load true PUnsigned w) as [y|] eqn:E2; [|discriminate].
      injection E as <-. destruct (load_element_inv _ _ _ _ E1) as (nodes & -> & ->). apply load_unsigned_stands in E2. destruct E2 as (id & -> & S & B).
      injection H as <-. exists nodes, id. split; [|reflexivity]. exists w. auto.
    + destruct (load true (PElement _) v); [|discriminate]. destruct (load true PUnsigned w); discriminate.
  - intros (nodes & id & (w & -> & S & B) & ->).
    assert (E : load_all true [PElement (element_class h); PUnsigned] [] [VElement (element_class h) nodes; w] = Some [LElement nodes; LUnsigned id]).
    { cbn [load_all]. rewrite load_element. rewrite (proj2 (load_unsigned_stands w (LUnsigned id))) by (exists id; auto). reflexivity. }
    apply X in E. rewrite E. reflexivity.
Qed.

(** The additions that count *)
Lemma adds_dec : forall c vs, (exists nodes id, adds_element c nodes id vs) \/ (forall nodes id, ~ adds_element c nodes id vs).
Proof.
  intros c vs. destruct (hash_add {| element_class := c; cell_size := 1; contents := [] |} vs) eqn:E.
  - apply hash_add_spec in E. destruct E as (nodes & id & A & _). left. exists nodes, id. exact A.
  - right. intros nodes id A. assert (hash_add {| element_class := c; cell_size := 1; contents := [] |} vs <> None); [|congruence].
    erewrite (proj2 (hash_add_spec _ _ _)) by (exists nodes, id; split; [exact A|reflexivity]). discriminate.
Qed.
Lemma adds_unique : forall c nodes id nodes' id' vs, adds_element c nodes id vs -> adds_element c nodes' id' vs -> nodes = nodes' /\ id = id'.
Proof.
  intros c nodes id nodes' id' vs (w & -> & S & B) (w' & E & S' & B'). injection E as <- <-. split; [reflexivity|].
  inversion S; subst; inversion S'; subst; reflexivity || congruence.
Qed.
Lemma session : forall h calls, exists history,
  after_adds h calls = {| element_class := element_class h; cell_size := cell_size h;
     contents := fold_left (fun t op => add (cell_size h) t (fst op) (snd op)) history (contents h) |} /\
  (forall nodes id, In (nodes, id) history <-> exists vs, In vs calls /\ adds_element (element_class h) nodes id vs).
Proof.
  intros h calls. revert h. induction calls as [|vs calls IH]; intros h.
  - exists []. split; [destruct h; reflexivity|]. intros nodes id. split; [intros []|intros (vs & [] & _)].
  - cbn [after_adds]. destruct (adds_dec (element_class h) vs) as [(nodes & id & A)|N].
    + rewrite (proj2 (hash_add_spec h vs _)) by (exists nodes, id; split; [exact A|reflexivity]).
      destruct (IH {| element_class := element_class h; cell_size := cell_size h; contents := add (cell_size h) (contents h) nodes id |}) as (history & E & S).
      cbn [element_class cell_size contents] in *. exists ((nodes, id) :: history). split; [exact E|]. intros nodes' id'. cbn [In]. rewrite S. split.
      * intros [X|(vs' & I & A')]; [injection X as <- <-; exists vs; auto|exists vs'; auto].
      * intros (vs' & [<-|I] & A'); [left; destruct (adds_unique _ _ _ _ _ _ A A') as [-> ->]; reflexivity|right; exists vs'; auto].
    + destruct (hash_add h vs) as [h'|] eqn:E.
      * exfalso. apply hash_add_spec in E. destruct E as (nodes & id & A & _). exact (N _ _ A).
      * destruct (IH h) as (history & E' & S). exists history. split; [exact E'|]. intros nodes id. rewrite S. split; intros (vs' & I & A').
        -- exists vs'. cbn. auto.
        -- destruct I as [<-|I]; [destruct (N _ _ A')|]. exists vs'. auto.
Qed.
Lemma hash_get_at : forall h v p, written v p -> length p = 3 -> hash_get h [v] = Returns (VSet (get (cell_size h) (contents h) p)).
Proof.
  intros h v p W L. unfold hash_get. rewrite (dispatch1 true _ _ _ _ _ (load_world 3 v p W L) eq_refl). reflexivity.
Qed.
Lemma hash_history : forall c size calls v p, (0 < size)%R -> Forall (Forall in_space) calls -> written v p -> length p = 3 ->
  exists l, hash_get (after_adds (empty_hash_grid c size) calls) [v] = Returns (VSet l) /\ NoDup l /\
  (forall vs nodes id, In vs calls -> adds_element c nodes id vs -> in_bounding_box nodes p -> In id l) /\
  (forall id, In id l -> exists vs nodes, In vs calls /\ adds_element c nodes id vs /\
     forall k x, nth_error p k = Some x ->
      (exists n y, In n nodes /\ nth_error n k = Some y /\ y < x + (1 + EPSILON) * size)%R /\
      (exists n y, In n nodes /\ nth_error n k = Some y /\ x - (1 + EPSILON) * size < y)%R).
Proof.
  intros c size calls v p Hs Sp W L. destruct (session (empty_hash_grid c size) calls) as (history & E & S).
  rewrite E. cbn [element_class cell_size contents empty_hash_grid] in *. rewrite (hash_get_at _ v p W L). cbn [cell_size contents].
  assert (V : valid_history 3 history).
  { unfold valid_history. apply Forall_forall. intros [nodes id] I. apply S in I. destruct I as (vs & I & (w & -> & _)).
    rewrite Forall_forall in Sp. apply Sp in I. rewrite Forall_cons_iff in I. exact (proj1 I). }
  eexists. split; [reflexivity|]. split; [apply NoDup_nodup|]. split.
  - intros vs nodes id I A B. change (fold_left _ history []) with (run size history). eapply hash_complete; try eassumption. apply S. exists vs. auto.
  - intros id I. destruct (hash_sound 3 size history p id Hs V L I) as (nodes & I' & N). apply S in I'. destruct I' as (vs & I' & A). exists vs, nodes. auto.
Qed.
