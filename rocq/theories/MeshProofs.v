(** Proofs about meshes and domains (C27-C30). *)

From Coq Require Import String List Arith ZArith Lia Bool.
From Verif Require Import MeshModel MeshSpec.
Import ListNotations.
Open Scope nat_scope.

Lemma upd_same : forall (A : Type) (f : nat -> A) i v, upd f i v i = v.
Proof. intros. unfold upd. rewrite Nat.eqb_refl. reflexivity. Qed.
Lemma upd_other : forall (A : Type) (f : nat -> A) i v j, j <> i -> upd f i v j = f j.
Proof. intros. unfold upd. apply Nat.eqb_neq in H. rewrite H. reflexivity. Qed.

(** ** Reading a map *)
Lemma gather_map : forall (buffer : list nat) (off : nat -> nat) (v : nat -> nat) ks,
  (forall k, In k ks -> nth_error buffer (off k) = Some (v k)) ->
  fold_right (fun k acc => match nth_error buffer (off k), acc with
                           | Some v, Some l => Some (v :: l) | _, _ => None end) (Some []) ks = Some (map v ks).
Proof.
  intros buffer off v ks H. induction ks as [|k ks IH]; [reflexivity|]. simpl.
  rewrite (H k) by (left; reflexivity). rewrite IH by (intros; apply H; right; assumption). reflexivity.
Qed.

Lemma element_indices_strided : forall h d D e buffer v, domains h d = Some D ->
  buffers h (data (p_elements D)) = Some buffer -> e < rows (p_elements D) ->
  (forall k, k < cols (p_elements D) ->
     nth_error buffer (e * outer (p_elements D) + k * inner (p_elements D)) = Some (v k)) ->
  element_indices h d e = Some (map v (seq 0 (cols (p_elements D)))).
Proof.
  intros h d D e buffer v HD HB He Hv. unfold element_indices. rewrite HD, HB.
  apply Nat.ltb_lt in He. rewrite He.
  apply (gather_map buffer (fun k => e * outer (p_elements D) + k * inner (p_elements D))).
  intros k Hk. apply in_seq in Hk. apply Hv. lia.
Qed.

Lemma nth_error_concat : forall (A : Type) n (t : list (list A)) e k, Forall (fun row => length row = n) t ->
  e < length t -> k < n -> nth_error (concat t) (e * n + k) = nth_error (nth e t []) k.
Proof.
  intros A n t. induction t as [|row t IH]; intros e k Ht He Hk; simpl in *; [lia|].
  inversion Ht as [|? ? Hr Ht']; subst. destruct e.
  - simpl. apply nth_error_app1. exact Hk.
  - rewrite nth_error_app2 by (simpl; lia).
    replace (S e * length row + k - length row) with (e * length row + k) by (simpl; lia). apply IH; assumption || lia.
Qed.

Lemma map_nth_seq_nat : forall (l : list nat) n, length l = n -> map (fun k => nth k l 0) (seq 0 n) = l.
Proof.
  intros l. induction l as [|a l IH]; intros n H; simpl in H; subst; [reflexivity|].
  simpl. f_equal. rewrite <- seq_shift, map_map. apply IH. reflexivity.
Qed.

Lemma row_length : forall (t : table) n e, Forall (fun row => length row = n) t -> e < length t -> length (nth e t []) = n.
Proof. intros t n e H He. apply (proj1 (Forall_forall _ _) H). apply nth_In. exact He. Qed.

Lemma element_indices_owned : forall h d b m n t e,
  domains h d = Some {| p_mesh := m; p_buffer := Some b;
     p_elements := {| data := b; rows := length t; cols := n; outer := n; inner := 1 |} |} ->
  buffers h b = Some (concat t) -> Forall (fun row => length row = n) t -> e < length t ->
  element_indices h d e = Some (nth e t []).
Proof.
  intros h d b m n t e HD HB Ht He.
  rewrite (element_indices_strided h d _ e (concat t) (fun k => nth k (nth e t []) 0) HD); simpl; try assumption.
  - f_equal. apply map_nth_seq_nat. apply row_length; assumption.
  - intros k Hk. rewrite Nat.mul_1_r, nth_error_concat by assumption.
    apply nth_error_nth'. rewrite (row_length t n e Ht He). exact Hk.
Qed.

(** ** Invariant of one mesh under add and remove *)
Definition owns (n : nat) (h : heap) (m : nat) (x : string * nat) (y : string * table) : Prop :=
  fst x = fst y /\ exists b, snd x = S b /\
    domains h (snd x) = Some {| p_mesh := At m; p_buffer := Some b;
      p_elements := {| data := b; rows := length (snd y); cols := n; outer := n; inner := 1 |} |} /\
    buffers h b = Some (concat (snd y)) /\ snd x < next h.

Definition inv (n : nat) (h : heap) (m : nat) (s : list (string * table)) : Prop :=
  exists M, meshes h m = Some M /\ m < next h /\
    Forall2 (owns n h m) (p_domains M) s /\ NoDup (map snd (p_domains M)) /\
    Forall (fun y => Forall (fun row => length row = n) (snd y)) s.

Lemma Forall2_impl : forall (A B : Type) (P Q : A -> B -> Prop) l m, (forall a b, P a b -> Q a b) -> Forall2 P l m -> Forall2 Q l m.
Proof. intros A B P Q l m H F. induction F; constructor; auto. Qed.

Lemma Forall2_in_impl : forall (A B : Type) (P Q : A -> B -> Prop) l m, Forall2 P l m ->
  (forall a b, In a l -> P a b -> Q a b) -> Forall2 Q l m.
Proof.
  intros A B P Q l m F. induction F; intros H'; constructor.
  - apply H'; [left; reflexivity|assumption].
  - apply IHF. intros a b Ha. apply H'. right. exact Ha.
Qed.

Lemma existsb_named : forall n h m l s name, Forall2 (owns n h m) l s ->
  existsb (fun d => String.eqb (fst d) name) l = existsb (named name) s.
Proof.
  intros n h m l s name F. induction F as [|x y l s (E & _) F IH]; [reflexivity|].
  simpl. unfold named at 1. rewrite E, IH. reflexivity.
Qed.

Lemma owns_fresh : forall n h h' m x y, owns n h m x y ->
  (forall d, d < next h -> domains h' d = domains h d) -> (forall b, b < next h -> buffers h' b = buffers h b) ->
  next h <= next h' -> owns n h' m x y.
Proof.
  intros n h h' m x y (E & b & Eb & HD & HB & Hlt) Hd Hb Hn. split; [exact E|]. exists b. split; [exact Eb|].
  rewrite Hd, Hb by lia. repeat split; try assumption. lia.
Qed.

(** Adding a new domain whose pointer ends on m. *)
Lemma inv_push : forall n h m s name t ptr, inv n h m s -> Forall (fun row => length row = n) t ->
  ptr = Null \/ ptr = At m ->
  exists h', outcome (add_domain_ptr (fst (new_domain h ptr n t)) m (snd (new_domain h ptr n t)) name) = Some h' /\
    inv n h' m (s ++ [(name, t)]).
Proof.
  intros n h m s name t ptr (M & HM & Hm & F & ND & HR) Ht Hptr.
  unfold new_domain, fresh. cbn [fst snd].
  set (b := next h). cbn [next set_buffer set_domain meshes domains buffers].
  unfold add_domain_ptr. cbn [meshes set_domain set_buffer domains]. rewrite HM, upd_same.
  assert (Fr : forall x, In x (p_domains M) -> snd x < b).
  { clear -F. unfold b. intros x Hx. induction F as [|y z l s (_ & k & _ & _ & _ & Hlt) F IH]; [contradiction|].
    destruct Hx as [<- | Hx]; [exact Hlt|apply IH; exact Hx]. }
  assert (FF : find (fun x => Nat.eqb (snd x) (S b)) (p_domains M) = None).
  { clear -Fr. induction (p_domains M) as [|x l IH]; [reflexivity|]. simpl.
    assert (snd x < b) by (apply Fr; left; reflexivity).
    destruct (Nat.eqb_spec (snd x) (S b)); [lia|]. apply IH. intros y Hy. apply Fr. right. exact Hy. }
  set (D := {| data := b; rows := length t; cols := n; outer := n; inner := 1 |}).
  assert (P : forall h', (forall d, d < b -> domains h' d = domains h d) -> (forall k, k < b -> buffers h' k = buffers h k) ->
    domains h' (S b) = Some {| p_mesh := At m; p_buffer := Some b; p_elements := D |} ->
    buffers h' b = Some (concat t) -> next h' = S (S b) ->
    meshes h' m = Some {| p_nodes := p_nodes M; p_domains := p_domains M ++ [(name, S b)] |} ->
    inv n h' m (s ++ [(name, t)])).
  { intros h' Hd Hb HD HB Hn Hmesh. eexists. split; [exact Hmesh|]. split; [rewrite Hn; unfold b; lia|]. cbn [p_domains].
    split; [|split].
    - apply Forall2_app.
      + eapply Forall2_impl; [|exact F]. intros x y O. apply (owns_fresh n h h' m x y O); [exact Hd|exact Hb|rewrite Hn; unfold b; lia].
      + constructor; [|constructor]. split; [reflexivity|]. exists b. cbn [fst snd]. rewrite HD, HB, Hn.
        repeat split; try reflexivity. lia.
    - rewrite map_app. apply NoDup_remove_1 with (a := S b) (l' := []) in ND || idtac.
      cbn [map]. assert (NI : ~ In (S b) (map snd (p_domains M))).
      { intros H. apply in_map_iff in H. destruct H as (x & E & Hx). apply Fr in Hx. lia. }
      clear -ND NI. induction (map snd (p_domains M)) as [|a l IH]; simpl.
      + constructor; [intros []|constructor].
      + inversion ND; subst. constructor.
        * rewrite in_app_iff. intros [H|[H|[]]]; [contradiction|]. apply NI. left. symmetry. exact H.
        * apply IH; [assumption|]. intros H. apply NI. right. exact H.
    - apply Forall_app. split; [exact HR|]. constructor; [exact Ht|constructor]. }
  destruct Hptr as [-> | ->]; cbn [p_mesh p_buffer p_elements].
  - eexists. split; [reflexivity|].
    apply P; unfold push_domain; cbn [domains buffers meshes next set_domain set_buffer set_mesh]; intros;
      repeat (rewrite upd_same || rewrite upd_other by lia); reflexivity.
  - rewrite Nat.eqb_refl, FF. eexists. split; [reflexivity|].
    apply P; unfold push_domain; cbn [domains buffers meshes next set_domain set_buffer set_mesh]; intros;
      repeat (rewrite upd_same || rewrite upd_other by lia); reflexivity.
Qed.

(** The loop with an empty body returns only when its condition is false at the start. *)
Lemma while_id : forall (S : Type) (cond : S -> bool) fuel s r, while cond (fun x => x) fuel s = Some r ->
  r = s /\ cond s = false.
Proof.
  intros S cond fuel s r. induction fuel as [|fuel IH]; simpl; [discriminate|].
  destruct (cond s) eqn:E; [exact IH|]. intros H. injection H as <-. auto.
Qed.
Lemma while_id_stuck : forall (S : Type) (cond : S -> bool) fuel s, cond s = true -> while cond (fun x => x) fuel s = None.
Proof. intros S cond fuel s H. induction fuel; simpl; [reflexivity|]. rewrite H. assumption. Qed.

Lemma delete_first : forall n h m M x l y s, meshes h m = Some M -> m < next h -> p_domains M = x :: l ->
  Forall2 (owns n h m) (x :: l) (y :: s) -> NoDup (map snd (x :: l)) ->
  Forall (fun y => Forall (fun row => length row = n) (snd y)) (y :: s) ->
  inv n (erase h m M 0) m s /\ domains (erase h m M 0) (snd x) = None.
Proof.
  intros n h m M x l y s HM Hm E F ND HR. inversion F as [|? ? ? ? O F']; subst. clear F.
  inversion ND as [|? ? NI ND']; subst. inversion HR as [|? ? _ HR']; subst.
  destruct O as (_ & b & Eb & HD & HB & Hlt).
  unfold erase. rewrite E. cbn [nth_error]. destruct x as [name d]. cbn [fst snd] in *.
  unfold delete_domain. rewrite HD. cbn [p_buffer]. split.
  - eexists. cbn [meshes set_mesh set_domain set_buffer next]. rewrite upd_same. split; [reflexivity|].
    split; [exact Hm|]. cbn [p_domains firstn skipn app]. split; [|split; assumption].
    eapply Forall2_in_impl; [exact F'|]. intros x' y' Hin (E' & b' & Eb' & HD' & HB' & Hlt').
    assert (snd x' <> d) by (intros C; apply NI; rewrite <- C; apply in_map; exact Hin).
    assert (b' <> b) by lia.
    split; [exact E'|]. exists b'. cbn [domains buffers set_mesh set_domain set_buffer next].
    rewrite !upd_other by assumption. repeat split; assumption.
  - cbn [domains set_mesh set_domain]. apply upd_same.
Qed.

Lemma inv_remove : forall n h m s matches matches' fuel h', inv n h m s ->
  (forall M x l y s', meshes h m = Some M -> p_domains M = x :: l -> s = y :: s' -> owns n h m x y -> matches x = matches' y) ->
  outcome (remove_matching h m matches fuel) = Some h' -> inv n h' m (remove_first matches' s).
Proof.
  intros n h m s matches matches' fuel h' (M & HM & Hm & F & ND & HR) Hmt H. unfold remove_matching in H. rewrite HM in H.
  destruct (find_loop matches (p_domains M) fuel) as [it|] eqn:L; [|discriminate].
  apply while_id in L. destruct L as [-> L]. unfold loop_condition in L.
  destruct (p_domains M) as [|x l] eqn:E.
  - simpl in H. injection H as <-. inversion F; subst. exists M. rewrite E. repeat split; auto.
  - simpl in L. apply negb_false_iff in L. cbn [length Nat.ltb Nat.leb] in H. simpl in H. injection H as <-.
    inversion F as [|? y ? s' O F']; subst. simpl.
    rewrite <- (Hmt M x l y s' HM E eq_refl O), L.
    apply (delete_first n h m M x l y s'); try assumption; rewrite <- ?E; try assumption; try (constructor; assumption).
Qed.

Lemma Forall2_nth_error : forall (A B : Type) (P : A -> B -> Prop) l m i x, Forall2 P l m -> nth_error l i = Some x ->
  exists y, nth_error m i = Some y /\ P x y.
Proof.
  intros A B P l m i x F. revert i. induction F; intros [|i] H'; try discriminate.
  - injection H' as <-. exists y. auto.
  - apply IHF. exact H'.
Qed.

Lemma inv_run_call : forall n fuel m h s c h', inv n h m s -> rectangular_call n c ->
  run_call n fuel m h c = Some h' -> inv n h' m (expected s c).
Proof.
  intros n fuel m h s c h' I R H. destruct c as [name t|name t|name|i]; cbn [run_call] in H.
  - unfold add_domain_new in H. assert (I0 := I). destruct I0 as (M & HM & Hm & F & ND & HR).
    rewrite HM in H. rewrite (existsb_named n h m _ s name F) in H. cbn [expected]. destruct (existsb (named name) s).
    + simpl in H. injection H as <-. exact I.
    + destruct (inv_push n h m s name t (At m) I R (or_intror eq_refl)) as (h1 & E & I').
      destruct (new_domain h (At m) n t) as [hh d]. cbn [fst snd] in E. rewrite E in H. injection H as <-. exact I'.
  - destruct (inv_push n h m s name t Null I R (or_introl eq_refl)) as (h1 & E & I').
    destruct (new_domain h Null n t) as [hh d]. cbn [fst snd] in E. rewrite E in H. injection H as <-. exact I'.
  - eapply inv_remove; [exact I| |exact H]. intros M x l y s' HM E _ (En & _). unfold named. rewrite En. reflexivity.
  - destruct I as (M & HM & Hm & F & ND & HR). unfold domain_at in H. rewrite HM in H.
    destruct (nth_error (p_domains M) i) as [x|] eqn:Ex; cbn [option_map] in H.
    + assert (Hrm := H). unfold remove, remove_matching in Hrm. rewrite HM in Hrm.
      destruct (find_loop _ (p_domains M) fuel) as [it|] eqn:L; [|discriminate].
      apply while_id in L. destruct L as [-> L]. unfold loop_condition in L.
      destruct (p_domains M) as [|x0 l] eqn:E; [destruct i; discriminate|].
      simpl in L. apply negb_false_iff, Nat.eqb_eq in L.
      assert (i = 0).
      { destruct i; [reflexivity|]. exfalso. simpl in Ex. apply nth_error_In in Ex. inversion ND; subst.
        apply H2. rewrite L. apply in_map. exact Ex. }
      subst i. simpl in Ex. injection Ex as <-.
      inversion F as [|? y ? s' O F']; subst. simpl.
      simpl in Hrm. injection Hrm as <-.
      apply (delete_first n h m M x0 l y s'); try assumption.
    + injection H as <-. cbn [expected]. apply nth_error_None in Ex.
      assert (Hlen : length (p_domains M) = length s) by (clear -F; induction F; simpl; congruence).
      rewrite firstn_all2 by lia. rewrite skipn_all2 by lia. rewrite app_nil_r. exists M. auto.
Qed.

Lemma inv_run : forall n fuel m calls h s h', inv n h m s -> Forall (rectangular_call n) calls ->
  run n fuel m h calls = Some h' -> inv n h' m (fold_left expected calls s).
Proof.
  intros n fuel m calls. induction calls as [|c calls IH]; intros h s h' I R H; simpl in *.
  - injection H as <-. exact I.
  - inversion R; subst. destruct (run_call n fuel m h c) as [h1|] eqn:E; [|discriminate].
    apply (IH h1); [|assumption|exact H]. eapply inv_run_call; eassumption.
Qed.

Lemma inv_new_mesh : forall n h nodes, inv n (fst (new_mesh h nodes)) (snd (new_mesh h nodes)) [].
Proof.
  intros. unfold new_mesh, fresh. cbn [fst snd]. eexists. cbn [meshes set_mesh]. rewrite upd_same. split; [reflexivity|].
  split; [simpl; lia|]. cbn [p_domains]. repeat constructor.
Qed.

Lemma owns_usable : forall n h m x y, owns n h m x y -> Forall (fun row => length row = n) (snd y) ->
  usable h m (snd x) (snd y).
Proof.
  intros n h m x y (_ & b & Eb & HD & HB & _) HR. unfold usable, domain_mesh, number_of_elements. rewrite HD.
  split; [reflexivity|]. split; [reflexivity|]. intros e He. eapply element_indices_owned; eassumption.
Qed.

Lemma history : forall n fuel h0 nodes calls h, Forall (rectangular_call n) calls ->
  run n fuel (snd (new_mesh h0 nodes)) (fst (new_mesh h0 nodes)) calls = Some h ->
  let m := snd (new_mesh h0 nodes) in let s := expected_after calls in
  number_of_domains h m = Some (length s) /\
  (forall i, match nth_error s i with
             | None => domain_at h m i = None
             | Some (_, t) => exists d, domain_at h m i = Some d /\ usable h m d t
             end) /\
  (forall name, match find (named name) s with
                | None => domain_named h m name = None
                | Some (_, t) => exists d, domain_named h m name = Some d /\ usable h m d t
                end).
Proof.
  intros n fuel h0 nodes calls h R H m s.
  pose proof (inv_run n fuel _ calls _ [] h (inv_new_mesh n h0 nodes) R H) as (M & HM & Hm & F & ND & HR).
  fold m in HM, Hm, F. change (fold_left expected calls []) with s in *.
  unfold number_of_domains, domain_at, domain_named. rewrite HM. simpl.
  split; [|split].
  - f_equal. clear -F. induction F; simpl; congruence.
  - clear -F HR. induction F as [|x y l s' O F IH]; intros i.
    + destruct i; reflexivity.
    + inversion HR; subst. destruct i; simpl.
      * destruct y as [nm t]. exists (snd x). split; [reflexivity|]. apply (owns_usable n h m x (nm, t)); assumption.
      * apply IH. assumption.
  - intros name. clear -F HR. induction F as [|x y l s' O F IH]; [reflexivity|].
    inversion HR; subst. simpl. unfold named at 1. destruct O as (E & O). rewrite <- E.
    destruct (String.eqb (fst x) name).
    + destruct y as [nm t]. exists (snd x). split; [reflexivity|]. apply (owns_usable n h m x (nm, t)); [split|]; assumption.
    + apply IH. assumption.
Qed.

Lemma NoDup_remove_nth : forall (A : Type) (l : list A) i, NoDup l -> NoDup (firstn i l ++ skipn (S i) l).
Proof.
  intros A l i ND. destruct (le_lt_dec (length l) i) as [H|H].
  - rewrite firstn_all2, skipn_all2, app_nil_r by lia. exact ND.
  - destruct (nth_error l i) as [x|] eqn:E; [|apply nth_error_None in E; lia].
    assert (L : l = firstn i l ++ x :: skipn (S i) l).
    { clear -E. revert l E. induction i; intros [|a l] E; try discriminate; simpl in *; [congruence|].
      f_equal. apply IHi. exact E. }
    rewrite L in ND at 1. apply NoDup_remove_1 in ND. exact ND.
Qed.

(** Names stay distinct when domains are only created by the mesh itself. *)
Lemma expected_names : forall calls s, (forall c, In c calls -> forall name t, c <> AddPointer name t) ->
  NoDup (map fst s) -> NoDup (map fst (fold_left expected calls s)).
Proof.
  induction calls as [|c calls IH]; intros s H ND; [exact ND|]. simpl. apply IH; [intros c' Hc; apply H; right; exact Hc|].
  destruct c as [name t|name t|name|i]; cbn [expected].
  - destruct (existsb (named name) s) eqn:E; [exact ND|]. rewrite map_app. simpl.
    assert (NI : ~ In name (map fst s)).
    { intros Hin. apply in_map_iff in Hin. destruct Hin as (x & <- & Hx).
      assert (existsb (named (fst x)) s = true) by (apply existsb_exists; exists x; split; [exact Hx|unfold named; apply String.eqb_refl]).
      congruence. }
    clear -ND NI. induction (map fst s) as [|a l IH]; simpl.
    + constructor; [intros []|constructor].
    + inversion ND; subst. constructor.
      * rewrite in_app_iff. intros [Hi|[Hi|[]]]; [contradiction|]. apply NI. left. symmetry. exact Hi.
      * apply IH; [assumption|]. intros Hi. apply NI. right. exact Hi.
  - exfalso. apply (H (AddPointer name t) (or_introl eq_refl) name t). reflexivity.
  - clear -ND. induction s as [|x s IH]; [exact ND|]. simpl. simpl in ND. inversion ND; subst.
    destruct (named name x); [assumption|]. simpl. constructor; [|apply IH; assumption].
    intros Hi. apply H1. clear -Hi. induction s as [|y s IH]; [exact Hi|]. simpl in *.
    destruct (named name y); [right; exact Hi|]. simpl in Hi. destruct Hi as [Hi|Hi]; [left; exact Hi|right; apply IH; exact Hi].
  - rewrite map_app, <- (firstn_map fst), <- (skipn_map fst). apply NoDup_remove_nth. exact ND.
Qed.

(** ** Removal (C28) *)
Lemma remove_matching_returns : forall h m M p, meshes h m = Some M ->
  ((exists fuel h' r, remove_matching h m p fuel = Ok h' r) <->
   (p_domains M = [] \/ exists x l, p_domains M = x :: l /\ p x = true)).
Proof.
  intros h m M p HM. unfold remove_matching. rewrite HM. split.
  - intros (fuel & h' & r & H). destruct (find_loop p (p_domains M) fuel) as [it|] eqn:L; [|discriminate].
    apply while_id in L. destruct L as [_ L]. unfold loop_condition in L.
    destruct (p_domains M) as [|x l]; [left; reflexivity|]. right. exists x, l. split; [reflexivity|].
    simpl in L. apply negb_false_iff. exact L.
  - intros [E|(x & l & E & Hp)]; exists 1; unfold find_loop, loop_condition; simpl; rewrite E; simpl.
    + eexists. eexists. reflexivity.
    + rewrite Hp. simpl. eexists. eexists. reflexivity.
Qed.

Lemma remove_matching_stuck : forall h m M p fuel x l, meshes h m = Some M -> p_domains M = x :: l -> p x = false ->
  remove_matching h m p fuel = Diverges.
Proof.
  intros h m M p fuel x l HM E Hp. unfold remove_matching. rewrite HM.
  unfold find_loop. rewrite while_id_stuck; [reflexivity|]. unfold loop_condition. rewrite E. simpl. rewrite Hp. reflexivity.
Qed.

Lemma remove_matching_exact : forall h m M p fuel h' r, meshes h m = Some M -> remove_matching h m p fuel = Ok h' r ->
  (r = false /\ h' = h /\ p_domains M = []) \/
  (r = true /\ exists x l, p_domains M = x :: l /\ p x = true /\ domains h' (snd x) = None /\
     meshes h' m = Some {| p_nodes := p_nodes M; p_domains := l |} /\
     (forall m', m' <> m -> meshes h' m' = meshes h m') /\ (forall d, d <> snd x -> domains h' d = domains h d) /\
     (forall b, (forall D, domains h (snd x) = Some D -> p_buffer D <> Some b) -> buffers h' b = buffers h b)).
Proof.
  intros h m M p fuel h' r HM H. unfold remove_matching in H. rewrite HM in H.
  destruct (find_loop p (p_domains M) fuel) as [it|] eqn:L; [|discriminate].
  apply while_id in L. destruct L as [-> L]. unfold loop_condition in L.
  destruct (p_domains M) as [|x l] eqn:E; simpl in H.
  - injection H as <- <-. left. auto.
  - injection H as <- <-. right. split; [reflexivity|]. exists x, l. simpl in L. apply negb_false_iff in L.
    split; [reflexivity|]. split; [exact L|]. unfold erase. rewrite E. cbn [nth_error]. destruct x as [name d]. cbn [snd].
    unfold delete_domain. cbn [firstn skipn app].
    destruct (domains h d) as [D|] eqn:HD; cbn [domains set_mesh set_domain].
    + split; [apply upd_same|].
      destruct (p_buffer D) as [b0|] eqn:HB; cbn [domains meshes buffers set_mesh set_domain set_buffer];
        (split; [apply upd_same|]); (split; [intros m' Hm'; apply upd_other; exact Hm'|]);
        (split; [intros d' Hd'; apply upd_other; exact Hd'|]); intros b Hb; [|reflexivity].
      apply upd_other. intros ->. apply (Hb D eq_refl). exact HB.
    + split; [exact HD|]. split; [cbn; apply upd_same|]. split; [intros m' Hm'; apply upd_other; exact Hm'|].
      split; reflexivity.
Qed.

(** ** Copies and moves (C29) *)
Definition unchanged_below (h h' : heap) : Prop :=
  next h <= next h' /\ forall i, i < next h -> meshes h' i = meshes h i /\ domains h' i = domains h i /\ buffers h' i = buffers h i.

Lemma unchanged_trans : forall h1 h2 h3, unchanged_below h1 h2 -> unchanged_below h2 h3 -> unchanged_below h1 h3.
Proof.
  intros h1 h2 h3 (L1 & U1) (L2 & U2). split; [lia|]. intros i Hi.
  destruct (U1 i Hi) as (A & B & C). destruct (U2 i ltac:(lia)) as (A' & B' & C'). repeat split; congruence.
Qed.

Definition is_clone (h h' : heap) (bound : nat) (x x' : string * nat) : Prop :=
  fst x = fst x' /\ bound <= snd x' /\
  exists D D', domains h (snd x) = Some D /\ domains h' (snd x') = Some D' /\
    p_mesh D' = Indeterminate /\ p_elements D' = p_elements D /\ (forall b, p_buffer D' = Some b -> bound <= b).

Lemma clone_domain_spec : forall h d h' d', heap_ok h -> clone_domain h d = Some (h', d') ->
  heap_ok h' /\ unchanged_below h h' /\ meshes h' = meshes h /\ next h <= d' < next h' /\
  exists D D', domains h d = Some D /\ domains h' d' = Some D' /\
    p_mesh D' = Indeterminate /\ p_elements D' = p_elements D /\ (forall b, p_buffer D' = Some b -> next h <= b).
Proof.
  intros h d h' d' OK H. unfold clone_domain in H. destruct (domains h d) as [D|] eqn:HD; [|discriminate].
  assert (Hd : d < next h).
  { destruct (le_lt_dec (next h) d) as [C|C]; [|exact C]. destruct (OK d C) as (_ & C2 & _). congruence. }
  destruct (p_buffer D) as [b|] eqn:HB; unfold fresh in H; cbn [fst snd set_buffer set_domain next meshes domains buffers] in H;
    injection H as <- <-; unfold set_domain, set_buffer, heap_ok, unchanged_below; cbn [next meshes domains buffers].
  - split.
    { intros i Hi. destruct (OK i ltac:(lia)) as (A & B & C). rewrite !upd_other by lia. auto. }
    split.
    { split; [lia|]. intros i Hi. rewrite !upd_other by lia. auto. }
    split; [reflexivity|]. split; [lia|]. exists D. eexists. split; [reflexivity|]. rewrite upd_same. split; [reflexivity|].
    split; [reflexivity|]. split; [reflexivity|]. simpl. intros b' E. injection E as <-. lia.
  - split.
    { intros i Hi. destruct (OK i ltac:(lia)) as (A & B & C). rewrite !upd_other by lia. auto. }
    split.
    { split; [lia|]. intros i Hi. rewrite !upd_other by lia. auto. }
    split; [reflexivity|]. split; [lia|]. exists D. eexists. split; [reflexivity|]. rewrite upd_same. split; [reflexivity|].
    split; [reflexivity|]. split; [reflexivity|]. simpl. intros b' E. discriminate.
Qed.

Lemma clone_domains_spec : forall l h h' l', heap_ok h -> clone_domains h l = Some (h', l') ->
  (forall x, In x l -> snd x < next h) ->
  heap_ok h' /\ unchanged_below h h' /\ meshes h' = meshes h /\ Forall2 (is_clone h h' (next h)) l l' /\
  (forall x, In x l' -> snd x < next h').
Proof.
  induction l as [|[name d] l IH]; intros h h' l' OK H Hl.
  - injection H as <- <-. split; [exact OK|]. split; [split; [lia|auto]|]. split; [reflexivity|]. split; [constructor|intros x []].
  - simpl in H. destruct (clone_domain h d) as [[h1 d1]|] eqn:E1; [|discriminate].
    destruct (clone_domains h1 l) as [[h2 l2]|] eqn:E2; [|discriminate]. injection H as <- <-.
    destruct (clone_domain_spec h d h1 d1 OK E1) as (OK1 & U1 & M1 & Hd1 & D & D' & HD & HD' & P1 & P2 & P3).
    assert (Hl1 : forall x, In x l -> snd x < next h1).
    { intros x Hx. destruct U1 as (L1 & _). specialize (Hl x (or_intror Hx)). lia. }
    destruct (IH h1 h2 l2 OK1 E2 Hl1) as (OK2 & U2 & M2 & F & Hl2).
    split; [exact OK2|]. split; [exact (unchanged_trans _ _ _ U1 U2)|]. split; [congruence|]. split.
    + constructor.
      * split; [reflexivity|]. cbn [snd]. split; [lia|]. exists D, D'. split; [exact HD|].
        destruct U2 as (_ & U2). destruct (U2 d1 ltac:(lia)) as (_ & -> & _). auto.
      * eapply Forall2_in_impl; [exact F|]. intros x x' Hx (N & B & D1 & D1' & H1 & H2 & H3 & H4 & H5).
        destruct U1 as (L1 & U1). split; [exact N|]. split; [lia|]. exists D1, D1'.
        destruct (U1 (snd x) (Hl x (or_intror Hx))) as (_ & <- & _). repeat split; auto. intros b Hb. specialize (H5 b Hb). lia.
    + intros x [<-|Hx]; [|apply Hl2; exact Hx]. cbn [snd]. destruct U2 as (L2 & _). lia.
Qed.

Lemma clone_domains_total : forall l h, heap_ok h -> (forall x, In x l -> domains h (snd x) <> None) ->
  exists h' l', clone_domains h l = Some (h', l').
Proof.
  induction l as [|[name d] l IH]; intros h OK H; [eexists; eexists; reflexivity|]. simpl.
  assert (Hd : domains h d <> None) by (apply (H (name, d)); left; reflexivity).
  destruct (clone_domain h d) as [[h1 d1]|] eqn:E.
  - destruct (clone_domain_spec h d h1 d1 OK E) as (OK1 & (L1 & U1) & _).
    destruct (IH h1 OK1) as (h2 & l2 & E2).
    + intros x Hx. destruct (le_lt_dec (next h) (snd x)) as [C|C].
      * destruct (OK _ C) as (_ & C2 & _). exfalso. apply (H x (or_intror Hx)). exact C2.
      * destruct (U1 _ C) as (_ & -> & _). apply H. right. exact Hx.
    + rewrite E2. eexists. eexists. reflexivity.
  - unfold clone_domain in E. destruct (domains h d) as [D|]; [|congruence]. destruct (p_buffer D); discriminate.
Qed.

Lemma fresh_ok : forall h, heap_ok h -> heap_ok (fst (fresh h)).
Proof. intros h OK i Hi. simpl in *. apply OK. lia. Qed.

Lemma element_indices_alive : forall h d e r, element_indices h d e = Some r ->
  exists D B, domains h d = Some D /\ buffers h (data (p_elements D)) = Some B.
Proof.
  intros h d e r H. unfold element_indices in H. destruct (domains h d) as [D|]; [|discriminate].
  destruct (buffers h (data (p_elements D))) as [B|] eqn:E; [|discriminate]. exists D, B. auto.
Qed.

Lemma copy_mesh_spec : forall h m M, heap_ok h -> meshes h m = Some M ->
  (forall x, In x (p_domains M) -> domains h (snd x) <> None) ->
  exists h' m' l', copy_mesh h m = Ok h' m' /\ m' <> m /\ heap_ok h' /\ unchanged_below h h' /\
    meshes h' m' = Some {| p_nodes := p_nodes M; p_domains := l' |} /\ next h <= m' /\
    Forall2 (is_clone h h' (next h)) (p_domains M) l' /\ (forall x, In x l' -> snd x < next h').
Proof.
  intros h m M OK HM Hal. unfold copy_mesh. rewrite HM.
  assert (OK1 := fresh_ok h OK). unfold fresh in *. cbn [fst] in OK1.
  set (h1 := {| meshes := meshes h; domains := domains h; buffers := buffers h; next := S (next h) |}) in *.
  assert (Hlt : forall x, In x (p_domains M) -> snd x < next h).
  { intros x Hx. destruct (le_lt_dec (next h) (snd x)) as [C|C]; [|exact C]. exfalso. apply (Hal x Hx). apply OK. exact C. }
  destruct (clone_domains_total (p_domains M) h1 OK1 Hal) as (h2 & l2 & E). rewrite E.
  assert (Hl1 : forall x, In x (p_domains M) -> snd x < next h1) by (intros x Hx; specialize (Hlt x Hx); unfold h1; simpl; lia).
  destruct (clone_domains_spec _ _ _ _ OK1 E Hl1) as (OK2 & (L2 & U2) & M2 & F & Hl2).
  assert (N2 : S (next h) <= next h2) by exact L2.
  assert (Hm : m < next h).
  { destruct (le_lt_dec (next h) m) as [C|C]; [|exact C]. destruct (OK m C) as (C1 & _). congruence. }
  eexists. exists (next h), l2. split; [reflexivity|]. split; [lia|]. split.
  { intros i Hi. cbn [meshes domains buffers next set_mesh] in *. rewrite upd_other by lia. apply OK2. exact Hi. }
  split.
  { split; [cbn; lia|]. intros i Hi. cbn [meshes domains buffers next set_mesh]. rewrite upd_other by lia. apply (U2 i). unfold h1. simpl. lia. }
  split; [cbn; apply upd_same|]. split; [lia|]. split; [|exact Hl2].
  eapply Forall2_impl; [|exact F]. intros x x' (N & B & D & D' & H1 & H2 & H3 & H4 & H5). split; [exact N|].
  split; [unfold h1 in B; simpl in B; lia|]. exists D, D'. repeat split; auto. intros b Hb. specialize (H5 b Hb). unfold h1 in H5. simpl in H5. lia.
Qed.

Lemma clone_element_indices : forall h h' k x x' e r, heap_ok h -> unchanged_below h h' -> is_clone h h' k x x' ->
  element_indices h (snd x) e = Some r -> element_indices h' (snd x') e = Some r.
Proof.
  intros h h' k x x' e r OK (L & U) (_ & _ & D & D' & HD & HD' & _ & HE & _) H.
  destruct (element_indices_alive h (snd x) e r H) as (D0 & B & HD0 & HB). rewrite HD in HD0. injection HD0 as <-.
  unfold element_indices in *. rewrite HD, HB in H. rewrite HD', HE.
  assert (data (p_elements D) < next h).
  { destruct (le_lt_dec (next h) (data (p_elements D))) as [C|C]; [|exact C]. destruct (OK _ C) as (_ & _ & C3). congruence. }
  destruct (U _ H0) as (_ & _ & ->). rewrite HB. exact H.
Qed.

Lemma delete_buffer_none : forall h d b, buffers h b = None -> buffers (delete_domain h d) b = None.
Proof.
  intros h d b H. unfold delete_domain. destruct (domains h d) as [D|]; [|exact H]. cbn [buffers set_domain].
  destruct (p_buffer D) as [b0|]; [|exact H]. cbn [buffers set_buffer]. unfold upd. destruct (Nat.eqb b b0); [reflexivity|exact H].
Qed.
Lemma delete_all_buffer_none : forall l h b, buffers h b = None ->
  buffers (fold_left (fun h (x : string * nat) => delete_domain h (snd x)) l h) b = None.
Proof. induction l as [|x l IH]; intros h b H; [exact H|]. simpl. apply IH. apply delete_buffer_none. exact H. Qed.

Lemma delete_all_buffers : forall l h x D b, In x l -> domains h (snd x) = Some D -> p_buffer D = Some b ->
  buffers (fold_left (fun h (x : string * nat) => delete_domain h (snd x)) l h) b = None.
Proof.
  induction l as [|y l IH]; intros h x D b Hx HD HB; [contradiction|]. simpl.
  destruct (Nat.eq_dec (snd y) (snd x)) as [E|E].
  - apply delete_all_buffer_none. unfold delete_domain. rewrite E, HD, HB. cbn [buffers set_domain set_buffer]. apply upd_same.
  - destruct Hx as [->|Hx]; [congruence|]. apply (IH _ x D); try assumption.
    unfold delete_domain. destruct (domains h (snd y)) as [Dy|]; [|exact HD]. cbn [domains set_domain]. rewrite upd_other by congruence.
    destruct (p_buffer Dy); exact HD.
Qed.

Lemma copy_dangles : forall h m M i d D b e, heap_ok h -> meshes h m = Some M ->
  (forall x, In x (p_domains M) -> domains h (snd x) <> None) ->
  domain_at h m i = Some d -> domains h d = Some D -> p_buffer D = Some b -> data (p_elements D) = b ->
  exists h' m', copy_mesh h m = Ok h' m' /\ exists d', domain_at h' m' i = Some d' /\
    domain_at (destroy_mesh h' m) m' i = Some d' /\ element_indices (destroy_mesh h' m) d' e = None.
Proof.
  intros h m M i d D b e OK HM Hal Hd HD HB Hdata.
  destruct (copy_mesh_spec h m M OK HM Hal) as (h' & m' & l' & E & Hne & OK' & (L & U) & HM' & Hlm & F & Hl').
  exists h', m'. split; [exact E|]. unfold domain_at in Hd. rewrite HM in Hd.
  destruct (nth_error (p_domains M) i) as [x|] eqn:Ex; [|discriminate]. injection Hd as Hd.
  destruct (Forall2_nth_error _ _ _ _ _ i x F Ex) as (x' & Ex' & (_ & Bx & D0 & D' & HD0 & HD' & P1 & P2 & P3)).
  rewrite Hd, HD in HD0. injection HD0 as <-. exists (snd x').
  assert (Hm : m < next h).
  { destruct (le_lt_dec (next h) m) as [C|C]; [|exact C]. destruct (OK m C) as (C1 & _). congruence. }
  assert (HMm : meshes h' m = Some M) by (destruct (U m Hm) as (-> & _); exact HM).
  assert (Hdlt : d < next h).
  { destruct (le_lt_dec (next h) d) as [C|C]; [|exact C]. destruct (OK d C) as (_ & C1 & _). congruence. }
  split; [unfold domain_at; rewrite HM'; cbn [p_domains]; rewrite Ex'; reflexivity|].
  assert (DM : forall l hh, meshes (fold_left (fun h (x : string * nat) => delete_domain h (snd x)) l hh) = meshes hh).
  { induction l as [|y l IH]; intros hh; [reflexivity|]. simpl. rewrite IH. unfold delete_domain.
    destruct (domains hh (snd y)) as [Dy|]; [|reflexivity]. destruct (p_buffer Dy); reflexivity. }
  unfold destroy_mesh. rewrite HMm. split.
  { unfold domain_at. cbn [meshes set_mesh]. rewrite upd_other by exact Hne. rewrite DM, HM'. cbn [p_domains]. rewrite Ex'. reflexivity. }
  unfold element_indices. cbn [domains buffers set_mesh].
  destruct (domains (fold_left _ (p_domains M) h') (snd x')) as [D1|] eqn:HD1; [|reflexivity].
  assert (DD : forall l hh, (forall y, In y l -> snd y <> snd x') ->
     domains (fold_left (fun h (x : string * nat) => delete_domain h (snd x)) l hh) (snd x') = domains hh (snd x')).
  { induction l as [|y l IH]; intros hh Hy; [reflexivity|]. simpl. rewrite IH by (intros z Hz; apply Hy; right; exact Hz).
    unfold delete_domain. destruct (domains hh (snd y)) as [Dy|]; [|reflexivity]. cbn [domains set_domain].
    rewrite upd_other by (intros C; apply (Hy y (or_introl eq_refl)); symmetry; exact C). destruct (p_buffer Dy); reflexivity. }
  rewrite DD in HD1.
  - rewrite HD' in HD1. injection HD1 as <-. rewrite P2, Hdata.
    rewrite (delete_all_buffers (p_domains M) h' x D b); [reflexivity|apply nth_error_In in Ex; exact Ex| |exact HB].
    rewrite Hd. destruct (U d Hdlt) as (_ & -> & _). exact HD.
  - intros y Hy. assert (snd y < next h).
    { destruct (le_lt_dec (next h) (snd y)) as [C|C]; [|exact C]. exfalso. apply (Hal y Hy). apply OK. exact C. }
    lia.
Qed.

Lemma move_mesh_spec : forall h m M, heap_ok h -> meshes h m = Some M ->
  exists h' m', move_mesh h m = Ok h' m' /\ m' <> m /\ meshes h' m' = Some M /\
    meshes h' m = Some {| p_nodes := []; p_domains := [] |} /\
    (forall i, i <> m -> i <> m' -> meshes h' i = meshes h i) /\ domains h' = domains h /\ buffers h' = buffers h.
Proof.
  intros h m M OK HM. unfold move_mesh, new_mesh, fresh, swap_mesh. cbn [meshes set_mesh].
  assert (Hm : m <> next h).
  { intros ->. destruct (OK (next h) (Nat.le_refl _)) as (C & _). congruence. }
  rewrite upd_same. rewrite upd_other by exact Hm. cbn [meshes]. rewrite HM.
  eexists. exists (next h). split; [reflexivity|]. split; [congruence|]. cbn [meshes set_mesh domains buffers].
  rewrite upd_same. rewrite (upd_other _ _ m) by congruence. rewrite upd_same. repeat split.
  intros i Hi Hi'. rewrite !upd_other by assumption. reflexivity.
Qed.

Lemma destroy_empty : forall h m, meshes h m = Some {| p_nodes := []; p_domains := [] |} -> destroy_mesh h m = set_mesh h m None.
Proof. intros h m H. unfold destroy_mesh. rewrite H. reflexivity. Qed.
