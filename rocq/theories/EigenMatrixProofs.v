(** Lemmas about the sparse matrix wrapper. *)

From Coq Require Import Reals Lra Lia List Arith Bool Sorted.
From Verif Require Import GridGeoModel ShapeModel Sums SparseModel SparseProofs EigenMatrixModel EigenMatrixSpec.
Import ListNotations.
Open Scope nat_scope.

Definition active (v : inner) : list (nat * R) := firstn (nnz v) (data v).
Definition increasing (l : list (nat * R)) : Prop := StronglySorted lt (map fst l).
Fixpoint assoc (key : nat) (l : list (nat * R)) : option R :=
  match l with [] => None | (k, v) :: l => if Nat.eqb k key then Some v else assoc key l end.
Definition modify (p : nat -> bool) (v : R) (l : list (nat * R)) : list (nat * R) :=
  map (fun e => if p (fst e) then (fst e, v) else e) l.

Lemma modify_fst : forall p v l, map fst (modify p v l) = map fst l.
Proof. intros. unfold modify. rewrite map_map. apply map_ext. intros [k x]. cbn. destruct (p k); reflexivity. Qed.
Lemma assoc_modify : forall p v l key,
  assoc key (modify p v l) = match assoc key l with Some x => Some (if p key then v else x) | None => None end.
Proof.
  induction l as [|[k x] l IH]; intros key; cbn; [reflexivity|].
  destruct (p k) eqn:E; cbn; destruct (Nat.eqb_spec k key); subst; try rewrite E; auto; apply IH.
Qed.
Lemma modify_firstn : forall p v n l, firstn n (modify p v l) = modify p v (firstn n l).
Proof. intros. unfold modify. apply firstn_map. Qed.
Lemma modify_none : forall p v l, (forall e, In e l -> p (fst e) = false) -> modify p v l = l.
Proof.
  intros p v l H. unfold modify. rewrite <- (map_id l) at 2. apply map_ext_in. intros e He. rewrite (H e He). reflexivity.
Qed.
Lemma modify_ext : forall p q v l, (forall e, In e l -> p (fst e) = q (fst e)) -> modify p v l = modify q v l.
Proof. intros. unfold modify. apply map_ext_in. intros e He. rewrite (H e He). reflexivity. Qed.
Lemma assoc_none : forall key l, (forall e, In e l -> fst e <> key) <-> assoc key l = None.
Proof.
  intros key. induction l as [|[k x] l IH]; cbn; [intuition|]. destruct (Nat.eqb_spec k key).
  - split; [intros H|discriminate]. exfalso. apply (H (k, x)); auto.
  - rewrite <- IH. split; [intros H e He; apply H; auto|]. intros H e [<-|He]; cbn; auto.
Qed.

Lemma index_nth : forall l p, index l p = nth p (map fst l) 0.
Proof. intros. unfold index. change 0 with (fst (0, 0%R)) at 2. rewrite map_nth. reflexivity. Qed.
Lemma index_firstn : forall l n p, p < n -> index (firstn n l) p = index l p.
Proof.
  intros l n p H. unfold index. f_equal. revert l p H. induction n as [|n IH]; intros l p H; [lia|].
  destruct l as [|a l]; [destruct p; reflexivity|]. cbn. destruct p; [reflexivity|]. apply IH. lia.
Qed.
Lemma nth_firstn : forall (A : Type) (d : A) l n p, p < n -> nth p (firstn n l) d = nth p l d.
Proof.
  intros A d l n p H. revert l p H. induction n as [|n IH]; intros l p H; [lia|].
  destruct l as [|a l]; [destruct p; reflexivity|]. cbn. destruct p; [reflexivity|]. apply IH. lia.
Qed.
Lemma sorted_nth : forall l, StronglySorted lt l -> forall a b, a < b < length l -> nth a l 0 < nth b l 0.
Proof.
  induction 1 as [|x l H IH F]; intros a b Hab; [cbn in Hab; lia|]. destruct b as [|b]; [lia|]. cbn in *.
  destruct a as [|a].
  - apply (proj1 (Forall_forall _ _) F). apply nth_In. lia.
  - apply IH. lia.
Qed.

(** The binary search finds the index if it is there. *)
Lemma search_some : forall l n key p, search l n key = Some p -> p < n /\ index l p = key.
Proof.
  intros l n key p. unfold search. destruct (andb _ _) eqn:E; [|discriminate]. intros [= <-].
  apply andb_true_iff in E. destruct E as [E1 E2]. apply Nat.ltb_lt in E1. apply Nat.eqb_eq in E2. auto.
Qed.
Lemma search_none : forall l n key, n <= length l -> increasing (firstn n l) -> search l n key = None ->
  forall p, p < n -> index l p <> key.
Proof.
  intros l n key Hn Hs H p Hp Hk.
  assert (M : forall a b, a <= b -> b < n -> index l a <= index l b).
  { intros a b Hab Hb. destruct (Nat.eq_dec a b) as [->|]; [lia|].
    pose proof (sorted_nth _ Hs a b) as S. rewrite map_length, firstn_length, Nat.min_l in S by lia.
    rewrite <- !index_nth, !index_firstn in S by lia. lia. }
  destruct (search_spec (index l) key 0 n) as (A & B & C); [lia|intros; apply M; lia|].
  unfold search in H. set (id := searchLowerIndex (index l) 0 n key) in *.
  destruct (andb _ _) eqn:E; [discriminate|]. apply andb_false_iff in E.
  destruct (Nat.lt_ge_cases p id) as [L|L]; [specialize (B p ltac:(lia)); lia|].
  destruct E as [E|E]; [apply Nat.ltb_ge in E; lia|]. apply Nat.eqb_neq in E.
  pose proof (C id ltac:(lia)). pose proof (M id p ltac:(lia) ltac:(lia)). lia.
Qed.

Lemma assoc_at : forall l p, increasing l -> p < length l -> assoc (index l p) l = Some (value l p).
Proof.
  induction l as [|[k x] l IH]; intros p Hs Hp; [cbn in Hp; lia|]. inversion Hs as [|? ? Hs' F]; subst. cbn [assoc].
  destruct p as [|p]; [unfold index, value; cbn; rewrite Nat.eqb_refl; reflexivity|].
  assert (L : k < index l p).
  { rewrite index_nth. apply (proj1 (Forall_forall _ _) F). apply nth_In. rewrite map_length. cbn in Hp. lia. }
  change (index ((k, x) :: l) (S p)) with (index l p). change (value ((k, x) :: l) (S p)) with (value l p).
  destruct (Nat.eqb_spec k (index l p)); [lia|]. apply IH; [exact Hs'|]. cbn in Hp. lia.
Qed.

Definition fine (n : nat) (v : inner) : Prop :=
  nnz v <= length (data v) /\ increasing (active v) /\ Forall (fun e => fst e < n) (active v).
Definition get (v : inner) (key : nat) : option R :=
  match search (data v) (nnz v) key with Some p => Some (value (data v) p) | None => None end.
Lemma active_length : forall n v, fine n v -> length (active v) = nnz v.
Proof. intros n v (H & _). unfold active. rewrite firstn_length. lia. Qed.
Lemma get_assoc : forall n v key, fine n v -> get v key = assoc key (active v).
Proof.
  intros n v key F. pose proof F as (H1 & H2 & _). unfold get. destruct (search _ _ _) as [p|] eqn:E.
  - apply search_some in E. destruct E as [Hp Hk]. subst key. rewrite <- (index_firstn _ (nnz v)) by exact Hp.
    change (firstn (nnz v) (data v)) with (active v). rewrite assoc_at; [|exact H2|rewrite (active_length n) by exact F; exact Hp].
    unfold value, active. rewrite nth_firstn by exact Hp. reflexivity.
  - symmetry. apply assoc_none. intros e He Hk. apply In_nth with (d := (0, 0%R)) in He. destruct He as (p & Hp & <-).
    rewrite (active_length n) in Hp by exact F. apply (search_none _ _ _ H1 H2 E p Hp).
    rewrite <- Hk. unfold active. rewrite nth_firstn by exact Hp. reflexivity.
Qed.

Lemma nth_map_in : forall (A B : Type) (d : A) (d' : B) (f : A -> B) l q, q < length l ->
  nth q (map f l) d' = f (nth q l d).
Proof. intros. rewrite (nth_indep _ d' (f d)) by (rewrite map_length; assumption). apply map_nth. Qed.
(** Assigning at the position of an index. *)
Lemma assign_length : forall l p v, p < length l -> length (assign l p v) = length l.
Proof. intros. unfold assign. rewrite app_length, firstn_length. cbn [length]. rewrite skipn_length. lia. Qed.
Lemma assign_nth : forall l p v q, p < length l ->
  nth q (assign l p v) (0, 0%R) = if Nat.eqb q p then (index l p, v) else nth q l (0, 0%R).
Proof.
  intros l p v q Hp. unfold assign. destruct (Nat.eqb_spec q p) as [->|N].
  - rewrite app_nth2; rewrite firstn_length, Nat.min_l by lia; [|lia]. rewrite Nat.sub_diag. reflexivity.
  - destruct (Nat.lt_ge_cases q p).
    + rewrite app_nth1 by (rewrite firstn_length; lia). apply nth_firstn. assumption.
    + rewrite app_nth2; rewrite firstn_length, Nat.min_l by lia; [|lia].
      replace (q - p) with (S (q - p - 1)) by lia. cbn [nth].
      rewrite <- (firstn_skipn (S p) l) at 2. rewrite app_nth2; rewrite firstn_length, Nat.min_l by lia; [|lia].
      f_equal. lia.
Qed.
Lemma assign_modify : forall l n p v, n <= length l -> p < n -> increasing (firstn n l) ->
  firstn n (assign l p v) = modify (Nat.eqb (index l p)) v (firstn n l).
Proof.
  intros l n p v Hn Hp Hs. apply nth_ext with (d := (0, 0%R)) (d' := (0, 0%R)).
  { unfold modify. rewrite map_length, !firstn_length, assign_length by lia. reflexivity. }
  intros q Hq. rewrite firstn_length, assign_length in Hq by lia.
  rewrite nth_firstn by lia. rewrite assign_nth by lia. unfold modify.
  rewrite (nth_map_in _ _ (0, 0%R) (0, 0%R)) by (rewrite firstn_length; lia).
  rewrite nth_firstn by lia. change (fst (nth q l (0, 0%R))) with (index l q).
  destruct (Nat.eqb_spec q p) as [->|N]; [rewrite Nat.eqb_refl; reflexivity|].
  destruct (Nat.eqb_spec (index l p) (index l q)) as [E|]; [exfalso|reflexivity].
  assert (S : forall a b, a < b -> b < n -> index l a < index l b).
  { intros a b H1 H2. pose proof (sorted_nth _ Hs a b) as S. rewrite map_length, firstn_length, Nat.min_l in S by lia.
    rewrite <- !index_nth, !index_firstn in S by lia. lia. }
  destruct (Nat.lt_ge_cases p q); [specialize (S p q)|specialize (S q p)]; lia.
Qed.

(** Clearing, on compressed vectors. *)
Definition full (v : inner) : Prop := nnz v = length (data v).
Definition modified (p : nat -> bool) (x : R) (v : inner) : inner := {| data := modify p x (data v); nnz := nnz v |}.
Lemma active_full : forall v, full v -> active v = data v.
Proof. intros v H. unfold active. rewrite H. apply firstn_all. Qed.
Lemma zero_at_full : forall n key v, fine n v -> full v -> zero_at key v = modified (Nat.eqb key) 0 v.
Proof.
  intros n key v F C. pose proof F as (H1 & H2 & _). unfold zero_at, modified. destruct (search _ _ _) as [p|] eqn:E.
  - apply search_some in E. destruct E as [Hp Hk]. f_equal. rewrite <- (firstn_all (assign _ _ _)).
    rewrite assign_length by exact Hp. rewrite assign_modify; [|lia|exact Hp|].
    + rewrite firstn_all, Hk. reflexivity.
    + rewrite <- C. exact H2.
  - rewrite modify_none; [destruct v; reflexivity|]. intros e He. apply In_nth with (d := (0, 0%R)) in He.
    destruct He as (p & Hp & <-). apply Nat.eqb_neq. intros Hk. rewrite <- C in E, Hp.
    apply (search_none _ _ _ H1 H2 E p Hp). unfold index. auto.
Qed.
Lemma zero_range_modify : forall a b l, increasing l -> zero_range a b l = modify (between a b) 0 l.
Proof.
  intros a b. induction l as [|[k x] l IH]; intros Hs; [reflexivity|]. inversion Hs as [|? ? Hs' F]; subst.
  cbn [zero_range modify map fst]. unfold between at 1. destruct (_ && _)%bool eqn:E.
  - f_equal. apply IH. exact Hs'.
  - destruct (Nat.ltb_spec b k).
    + f_equal. symmetry. apply modify_none. intros e He.
      assert (L : k < fst e) by (apply (proj1 (Forall_forall _ _) F); apply in_map; exact He).
      unfold between. apply andb_false_iff. right. apply Nat.leb_gt. lia.
    + f_equal. apply IH. exact Hs'.
Qed.
Lemma increasing_skipn : forall n l, increasing l -> increasing (skipn n l).
Proof.
  induction n as [|n IH]; intros l H; [exact H|]. destruct l as [|[k x] l]; [constructor|].
  inversion H; subst. cbn [skipn]. apply IH. assumption.
Qed.
Lemma zero_range_full : forall n a b v, fine n v -> full v ->
  (let id := searchLowerIndex (index (data v)) 0 (length (data v)) a in
   {| data := firstn id (data v) ++ zero_range a b (skipn id (data v)); nnz := nnz v |}) = modified (between a b) 0 v.
Proof.
  intros n a b v F C. pose proof F as (H1 & H2 & _). rewrite active_full in H2 by exact C. cbv zeta.
  set (id := searchLowerIndex _ _ _ _). unfold modified. f_equal.
  assert (S : forall p q, p <= q -> q < length (data v) -> index (data v) p <= index (data v) q).
  { intros p q Hpq Hq. destruct (Nat.eq_dec p q) as [->|]; [lia|].
    pose proof (sorted_nth _ H2 p q) as S. rewrite map_length in S. rewrite <- !index_nth in S. lia. }
  destruct (search_spec (index (data v)) a 0 (length (data v))) as (A & B & _); [lia|intros; apply S; lia|].
  fold id in A, B. rewrite zero_range_modify by (apply increasing_skipn; exact H2).
  rewrite <- (firstn_skipn id (data v)) at 3. unfold modify at 2. rewrite map_app. f_equal. symmetry.
  apply modify_none. intros e He. apply In_nth with (d := (0, 0%R)) in He. destruct He as (p & Hp & <-).
  rewrite firstn_length in Hp. rewrite nth_firstn by lia. specialize (B p ltac:(lia)). unfold between.
  apply andb_false_iff. left. apply Nat.leb_gt. unfold index in B. lia.
Qed.
Lemma memset_modify : forall l, map (fun e : nat * R => (fst e, 0%R)) l = modify (fun _ => true) 0 l.
Proof. reflexivity. Qed.
Lemma modified_fine : forall n p x v, fine n v -> fine n (modified p x v).
Proof.
  intros n p x v (H1 & H2 & H3). unfold fine, active, increasing, modified in *. cbn [data nnz].
  rewrite modify_firstn, modify_fst. split; [unfold modify; rewrite map_length; exact H1|]. split; [exact H2|].
  apply Forall_forall. intros e He. unfold modify in He. apply in_map_iff in He. destruct He as (e' & <- & He').
  apply (proj1 (Forall_forall _ _) H3) in He'. destruct (p (fst e')); exact He'.
Qed.
Lemma modified_full : forall p x v, full v -> full (modified p x v).
Proof. intros p x v H. unfold full, modified, modify. cbn [data nnz]. rewrite map_length. exact H. Qed.
Lemma modified_get : forall n p x v key, fine n v ->
  get (modified p x v) key = match get v key with Some y => Some (if p key then x else y) | None => None end.
Proof.
  intros n p x v key F. rewrite !(get_assoc n) by (try apply modified_fine; exact F).
  unfold modified, active. cbn [data nnz]. rewrite modify_firstn. apply assoc_modify.
Qed.

(** Insertion. *)
Lemma insert_sorted_in : forall key x l e, In e (insert_sorted key x l) <-> e = (key, x) \/ In e l.
Proof.
  intros key x. induction l as [|[k y] l IH]; intros e; cbn [insert_sorted In]; [cbn; intuition|].
  destruct (Nat.ltb key k); cbn [In]; [intuition|]. rewrite IH. intuition.
Qed.
Lemma insert_sorted_increasing : forall key x l, increasing l -> assoc key l = None -> increasing (insert_sorted key x l).
Proof.
  intros key x. induction l as [|[k y] l IH]; intros Hs Ha; [repeat constructor|].
  inversion Hs as [|? ? Hs' F]; subst. cbn [assoc] in Ha. destruct (Nat.eqb_spec k key) as [|N]; [discriminate|].
  cbn [insert_sorted]. destruct (Nat.ltb_spec key k).
  - constructor; [exact Hs|]. cbn. constructor; [assumption|]. eapply Forall_impl; [|exact F]. cbn. intros; lia.
  - constructor; [apply IH; assumption|]. apply Forall_forall. intros z Hz. apply in_map_iff in Hz.
    destruct Hz as (e & <- & He). apply insert_sorted_in in He. destruct He as [->|He]; [cbn; lia|].
    apply (proj1 (Forall_forall _ _) F). apply in_map. exact He.
Qed.
Lemma assoc_insert_sorted : forall key x l k, assoc key l = None ->
  assoc k (insert_sorted key x l) = if Nat.eqb key k then Some x else assoc k l.
Proof.
  intros key x. induction l as [|[k' y] l IH]; intros k Ha; [reflexivity|]. cbn [assoc] in Ha.
  destruct (Nat.eqb_spec k' key) as [|N]; [discriminate|]. cbn [insert_sorted]. destruct (Nat.ltb key k'); [reflexivity|].
  cbn [assoc]. rewrite IH by exact Ha. destruct (Nat.eqb_spec k' k); [|reflexivity].
  destruct (Nat.eqb_spec key k); [lia|reflexivity].
Qed.
Lemma with_room : forall n l free, increasing l -> Forall (fun e => fst e < n) l ->
  fine n {| data := l ++ free; nnz := length l |} /\ active {| data := l ++ free; nnz := length l |} = l.
Proof.
  intros n l free H1 H2.
  assert (A : active {| data := l ++ free; nnz := length l |} = l).
  { unfold active. cbn [data nnz]. rewrite firstn_app, Nat.sub_diag, firstn_all, firstn_O, app_nil_r. reflexivity. }
  split; [|exact A]. unfold fine. rewrite A. cbn [data nnz]. rewrite app_length. repeat split; try assumption. lia.
Qed.

(** setFromTriplets. *)
Lemma inner_vector_spec : forall ts n j,
  increasing (inner_vector ts n j) /\ Forall (fun e => fst e < n) (inner_vector ts n j) /\
  (forall k, k < n -> assoc k (inner_vector ts n j) = if stored ts k j then Some (coeff ts k j) else None).
Proof.
  intros ts n j. unfold inner_vector, increasing. rewrite map_map, map_id.
  set (p := fun i => stored ts i j). split; [|split].
  - assert (G : forall m a, StronglySorted lt (filter p (seq a m)) /\ Forall (le a) (filter p (seq a m))).
    { induction m as [|m IH]; intros a; [split; constructor|]. cbn [seq filter]. destruct (IH (S a)) as [A B].
      assert (B' : Forall (lt a) (filter p (seq (S a) m))) by (eapply Forall_impl; [|exact B]; cbn; intros; lia).
      destruct (p a).
      - split; constructor; auto. eapply Forall_impl; [|exact B']. cbn. intros; lia.
      - split; [exact A|]. eapply Forall_impl; [|exact B']. cbn. intros; lia. }
    apply G.
  - apply Forall_forall. intros e He. apply in_map_iff in He. destruct He as (i & <- & Hi). apply filter_In in Hi.
    destruct Hi as [Hi _]. apply in_seq in Hi. cbn. lia.
  - intros k Hk.
    assert (G : forall l, assoc k (map (fun i => (i, coeff ts i j)) l) = if existsb (Nat.eqb k) l then Some (coeff ts k j) else None).
    { induction l as [|i l IH]; [reflexivity|]. cbn. destruct (Nat.eqb_spec i k) as [->|N].
      - rewrite Nat.eqb_refl. reflexivity.
      - rewrite IH. destruct (Nat.eqb_spec k i); [lia|reflexivity]. }
    rewrite G. replace (existsb (Nat.eqb k) (filter p (seq 0 n))) with (p k); [reflexivity|].
    destruct (p k) eqn:E; symmetry.
    + apply existsb_exists. exists k. split; [apply filter_In; split; [apply in_seq; lia|exact E]|apply Nat.eqb_refl].
    + apply Bool.not_true_iff_false. intros H. apply existsb_exists in H. destruct H as (i & Hi & He).
      apply Nat.eqb_eq in He. subst i. apply filter_In in Hi. destruct Hi. congruence.
Qed.
