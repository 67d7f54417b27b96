(** Proofs about the spatial hash (C10). *)

From Coq Require Import ZArith List Reals Lia Lra Psatz.
From Flocq Require Import Core.Raux Core.Generic_fmt Core.Round_NE.
From Verif Require Import GridSpec GridGeoModel GridGeoSpec GridGeoProofs GridEnclosingProofs HashGridModel.
Import ListNotations.
Open Scope R_scope.

Lemma squared_norm_nonneg : forall a b, (0 <= squared_norm a b)%Z.
Proof.
  unfold squared_norm. induction a as [|x a IH]; intros [|y b]; simpl; try lia.
  specialize (IH b). pose proof (Z.square_nonneg (x - y)). lia.
Qed.

Lemma hash_equal_spec : forall a b, length a = length b -> (hash_equal a b = true <-> a = b).
Proof.
  intros a b Hl. unfold hash_equal. rewrite Z.eqb_eq.
  pose proof (squared_norm_nonneg a b) as P.
  assert (Q : Z.sqrt (squared_norm a b) = 0%Z <-> squared_norm a b = 0%Z).
  { split; intros H.
    - destruct (Z.sqrt_spec _ P) as [_ Q]. rewrite H in Q. simpl in Q. lia.
    - rewrite H. reflexivity. }
  rewrite Q. clear P Q. unfold squared_norm. revert b Hl.
  induction a as [|x a IH]; intros [|y b] Hl; simpl in *; try discriminate; [tauto|].
  pose proof (squared_norm_nonneg a b) as P. unfold squared_norm in P. split.
  - intros H. pose proof (Z.square_nonneg (x - y)).
    assert (E : ((x - y) * (x - y) = 0)%Z) by lia.
    assert (x = y) by (apply Z.eq_mul_0 in E; lia). subst. f_equal. apply IH; [congruence|lia].
  - intros H. injection H; intros; subst. rewrite (proj2 (IH b ltac:(congruence))) by reflexivity. lia.
Qed.

(** * The table as a finite multimap *)

Definition content (t : table) (key : list Z) : list Z :=
  match find t key with Some ids => ids | None => [] end.

Definition keys_of_length (D : nat) (t : table) : Prop := Forall (fun e => length (fst e) = D) t.

Lemma emplace_keys : forall D t key id, keys_of_length D t -> length key = D -> keys_of_length D (emplace t key id).
Proof.
  intros D t key id H Hk. induction H as [|[k ids] t He Ht IH]; simpl in *; [repeat constructor; assumption|].
  destruct (hash_equal k key); constructor; auto.
Qed.

Lemma content_emplace : forall D t key id key', keys_of_length D t -> length key = D -> length key' = D ->
  content (emplace t key id) key' = content t key' ++ (if hash_equal key key' then [id] else []).
Proof.
  intros D t key id key' H Hk Hk'. unfold content. induction H as [|[k ids] t He Ht IH]; simpl in *.
  - destruct (hash_equal key key'); reflexivity.
  - destruct (hash_equal k key) eqn:E; simpl.
    + apply hash_equal_spec in E; [|congruence]. subst k.
      destruct (hash_equal key key'); [reflexivity|]. rewrite app_nil_r. reflexivity.
    + destruct (hash_equal k key') eqn:E'; [|exact IH].
      apply hash_equal_spec in E'; [|congruence]. subst k.
      destruct (hash_equal key key') eqn:E''.
      * apply hash_equal_spec in E''; [|congruence]. subst key.
        assert (hash_equal key' key' = true) by (apply hash_equal_spec; reflexivity). congruence.
      * rewrite app_nil_r. reflexivity.
Qed.

Lemma in_content_fold : forall D keys t id key' x, keys_of_length D t -> Forall (fun k : list Z => length k = D) keys ->
  length key' = D ->
  (In x (content (fold_left (fun t key => emplace t key id) keys t) key') <->
   In x (content t key') \/ (x = id /\ In key' keys)) /\
  keys_of_length D (fold_left (fun t key => emplace t key id) keys t).
Proof.
  intros D keys. induction keys as [|k keys IH]; intros t id key' x Ht Hks Hk'; simpl.
  - split; [tauto|assumption].
  - inversion Hks as [|? ? Hk Hks']; subst. destruct (IH (emplace t k id) id key' x) as [I1 I2]; auto.
    { apply emplace_keys; auto. }
    split; [|assumption]. rewrite I1. rewrite (content_emplace (length key')) by auto. rewrite in_app_iff.
    destruct (hash_equal k key') eqn:E.
    + apply hash_equal_spec in E; [|auto]. subst k. simpl. intuition.
    + assert (k <> key') by (intros ->; rewrite (proj2 (hash_equal_spec key' key' eq_refl)) in E; auto; discriminate).
      simpl. intuition.
Qed.

(** * Bounds of an element *)

Lemma map2_length : forall (A B C : Type) (f : A -> B -> C) l m, length l = length m -> length (map2 f l m) = length l.
Proof. intros A B C f. induction l; intros [|b m]; simpl; intros; try discriminate; auto. Qed.

Lemma fold_map2_length : forall (f : R -> R -> R) ns (n : list R), Forall (fun m => length m = length n) ns ->
  length (fold_left (map2 f) ns n) = length n.
Proof.
  intros f ns. induction ns as [|m ns IH]; intros n H; simpl; [reflexivity|].
  inversion H; subst. rewrite IH.
  - apply map2_length; congruence.
  - rewrite map2_length by congruence. assumption.
Qed.

Definition valid_element (D : nat) (nodes : list (list R)) : Prop :=
  nodes <> [] /\ Forall (fun n => length n = D) nodes.

Lemma colwise_length : forall D f nodes, valid_element D nodes -> length (colwise f nodes) = D.
Proof.
  intros D f [|n ns] [H1 H2]; [congruence|]. inversion H2; subst. simpl. apply fold_map2_length.
  assumption.
Qed.

Lemma fold_min_le : forall ns n k y, Forall (fun m : list R => length m = length n) ns ->
  nth_error (fold_left (map2 Rmin) ns n) k = Some y ->
  (forall m z, In m (n :: ns) -> nth_error m k = Some z -> y <= z) /\
  (exists m, In m (n :: ns) /\ nth_error m k = Some y).
Proof.
  induction ns as [|m ns IH]; intros n k y H E; simpl in E.
  - split; [|exists n; simpl; auto]. intros m z [<-|[]] Ez. rewrite E in Ez. injection Ez; intros; subst; lra.
  - inversion H as [|? ? Hm Hns]; subst.
    destruct (IH (map2 Rmin n m) k y) as [I1 I2]; [|assumption|].
    { rewrite map2_length by congruence. assumption. }
    assert (M : forall u v, nth_error n k = Some u -> nth_error m k = Some v ->
                nth_error (map2 Rmin n m) k = Some (Rmin u v))
      by (intros; apply nth_map2_intro; assumption).
    assert (NE : forall (l l' : list R) z, length l = length l' -> nth_error l k = Some z -> exists z', nth_error l' k = Some z').
    { intros l l' z El Ez. destruct (nth_error l' k) eqn:Em; [eauto|]. apply nth_error_None in Em.
      assert (nth_error l k <> None) by congruence. apply nth_error_Some in H0. lia. }
    split.
    + intros d z [<-|[<-|Hd]] Ez.
      * destruct (NE _ m _ (eq_sym Hm) Ez) as [v Ev].
        pose proof (I1 _ _ (or_introl eq_refl) (M _ _ Ez Ev)). pose proof (Rmin_l z v). lra.
      * destruct (NE _ n _ Hm Ez) as [u Eu].
        pose proof (I1 _ _ (or_introl eq_refl) (M _ _ Eu Ez)). pose proof (Rmin_r u z). lra.
      * apply (I1 d z (or_intror Hd) Ez).
    + destruct I2 as (d & [<-|Hd] & Ed).
      * apply nth_map2 in Ed. destruct Ed as (u & v & Eu & Ev & ->).
        unfold Rmin. destruct (Rle_dec u v); [exists n|exists m]; simpl; auto.
      * exists d. simpl; auto.
Qed.

Lemma fold_max_ge : forall ns n k y, Forall (fun m : list R => length m = length n) ns ->
  nth_error (fold_left (map2 Rmax) ns n) k = Some y ->
  (forall m z, In m (n :: ns) -> nth_error m k = Some z -> z <= y) /\
  (exists m, In m (n :: ns) /\ nth_error m k = Some y).
Proof.
  induction ns as [|m ns IH]; intros n k y H E; simpl in E.
  - split; [|exists n; simpl; auto]. intros m z [<-|[]] Ez. rewrite E in Ez. injection Ez; intros; subst; lra.
  - inversion H as [|? ? Hm Hns]; subst.
    destruct (IH (map2 Rmax n m) k y) as [I1 I2]; [|assumption|].
    { rewrite map2_length by congruence. assumption. }
    assert (M : forall u v, nth_error n k = Some u -> nth_error m k = Some v ->
                nth_error (map2 Rmax n m) k = Some (Rmax u v))
      by (intros; apply nth_map2_intro; assumption).
    assert (NE : forall (l l' : list R) z, length l = length l' -> nth_error l k = Some z -> exists z', nth_error l' k = Some z').
    { intros l l' z El Ez. destruct (nth_error l' k) eqn:Em; [eauto|]. apply nth_error_None in Em.
      assert (nth_error l k <> None) by congruence. apply nth_error_Some in H0. lia. }
    split.
    + intros d z [<-|[<-|Hd]] Ez.
      * destruct (NE _ m _ (eq_sym Hm) Ez) as [v Ev].
        pose proof (I1 _ _ (or_introl eq_refl) (M _ _ Ez Ev)). pose proof (Rmax_l z v). lra.
      * destruct (NE _ n _ Hm Ez) as [u Eu].
        pose proof (I1 _ _ (or_introl eq_refl) (M _ _ Eu Ez)). pose proof (Rmax_r u z). lra.
      * apply (I1 d z (or_intror Hd) Ez).
    + destruct I2 as (d & [<-|Hd] & Ed).
      * apply nth_map2 in Ed. destruct Ed as (u & v & Eu & Ev & ->).
        unfold Rmax. destruct (Rle_dec u v); [exists m|exists n]; simpl; auto.
      * exists d. simpl; auto.
Qed.

Lemma colwise_min_spec : forall D nodes k y, valid_element D nodes ->
  nth_error (colwise Rmin nodes) k = Some y ->
  (forall m z, In m nodes -> nth_error m k = Some z -> y <= z) /\ (exists m, In m nodes /\ nth_error m k = Some y).
Proof.
  intros D [|n ns] k y [H1 H2] E; [congruence|]. inversion H2; subst. apply fold_min_le; assumption.
Qed.
Lemma colwise_max_spec : forall D nodes k y, valid_element D nodes ->
  nth_error (colwise Rmax nodes) k = Some y ->
  (forall m z, In m nodes -> nth_error m k = Some z -> z <= y) /\ (exists m, In m nodes /\ nth_error m k = Some y).
Proof.
  intros D [|n ns] k y [H1 H2] E; [congruence|]. inversion H2; subst. apply fold_max_ge; assumption.
Qed.

(** * The cells of a point *)

Lemma hash_close_floor : forall t i, In i (hash_indices t) -> IZR i - EPSILON < t < IZR i + 1 + EPSILON.
Proof.
  intros t i. unfold hash_indices, hash_close. pose proof EPSILON_pos.
  destruct (Rlt_dec _ _) as [L|L].
  - apply sqr_lt in L. rewrite floor_minus_half, floor_plus_half.
    set (r := ZnearestA t) in *. simpl. intros [<-|[<-|[]]]; rewrite ?minus_IZR; lra.
  - intros [<-|[]]. pose proof (Zfloor_lb t). pose proof (Zfloor_ub t). lra.
Qed.

Lemma floor_in_hash_indices : forall t, In (Zfloor t) (hash_indices t).
Proof.
  intros t. unfold hash_indices, hash_close. pose proof EPSILON_pos. pose proof EPSILON_small.
  destruct (Rlt_dec _ _) as [L|L]; [|left; reflexivity].
  apply sqr_lt in L. rewrite floor_minus_half, floor_plus_half. set (r := ZnearestA t) in *.
  destruct (Rlt_le_dec t (IZR r)).
  - left. symmetry. apply Zfloor_imp. rewrite plus_IZR, minus_IZR. lra.
  - right. left. symmetry. apply Zfloor_imp. rewrite plus_IZR. lra.
Qed.

Lemma hash_indices_not_close : forall t, hash_close t = false -> hash_indices t = [Zfloor t].
Proof. intros t H. unfold hash_indices. rewrite H. reflexivity. Qed.

Lemma hash_cells_product : forall h p,
  hash_cells h p = list_product (map hash_indices (map (fun x => x / h) p)).
Proof.
  intros h p. unfold hash_cells. set (ts := map (fun x => x / h) p). clearbody ts.
  destruct (existsb (fun b => b) (map hash_close ts)) eqn:E; simpl; [reflexivity|].
  induction ts as [|t ts IH]; simpl in *; [reflexivity|].
  apply Bool.orb_false_iff in E. destruct E as [E1 E2].
  rewrite hash_indices_not_close by assumption. rewrite <- IH by assumption. reflexivity.
Qed.

Lemma floor_cell_in : forall h p, In (map (fun x => Zfloor (x / h)) p) (hash_cells h p).
Proof.
  intros h p. rewrite hash_cells_product. apply in_list_product.
  induction p as [|x p IH]; simpl; constructor; [apply floor_in_hash_indices|assumption].
Qed.

Lemma hash_cells_near : forall h p key, In key (hash_cells h p) ->
  Forall2 (fun x i => IZR i - EPSILON < x / h < IZR i + 1 + EPSILON) p key.
Proof.
  intros h p key. rewrite hash_cells_product. rewrite in_list_product. revert key.
  induction p as [|x p IH]; intros key H; simpl in H; inversion H; subst; constructor.
  - apply hash_close_floor; assumption.
  - apply IH; assumption.
Qed.

(** * Histories *)

Definition valid_history (D : nat) (history : list (list (list R) * Z)) : Prop :=
  Forall (fun op => valid_element D (fst op)) history.

Definition element_cells (h : R) (nodes : list (list R)) : list (list Z) :=
  list_product (map2 zrange (hash_coordinates h (colwise Rmin nodes)) (hash_coordinates h (colwise Rmax nodes))).

Lemma element_cells_length : forall D h nodes, valid_element D nodes ->
  Forall (fun k : list Z => length k = D) (element_cells h nodes).
Proof.
  intros D h nodes H. rewrite Forall_forall. intros key Hk. apply in_list_product in Hk.
  apply Forall2_length in Hk. rewrite <- Hk. unfold hash_coordinates.
  rewrite map2_length by (rewrite !map_length, !(colwise_length D) by assumption; reflexivity).
  rewrite map_length. apply colwise_length; assumption.
Qed.

Lemma run_content : forall D h history t key x, keys_of_length D t -> valid_history D history -> length key = D ->
  (In x (content (fold_left (fun t op => add h t (fst op) (snd op)) history t) key) <->
   In x (content t key) \/ exists nodes, In (nodes, x) history /\ In key (element_cells h nodes)).
Proof.
  intros D h history. induction history as [|[nodes id] history IH]; intros t key x Ht Hh Hk; simpl.
  - split; [tauto|]. intros [?|(? & [] & _)]. assumption.
  - inversion Hh as [|? ? He Hh']; subst. simpl in He.
    destruct (in_content_fold (length key) (element_cells h nodes) t id key x Ht) as [I1 I2]; auto.
    { apply element_cells_length; assumption. }
    rewrite IH; auto. unfold add at 1. fold (element_cells h nodes). rewrite I1. split.
    + intros [[H|[-> H]]|(ns & H1 & H2)]; [left; assumption|right; exists nodes; auto|right; exists ns; auto].
    + intros [H|(ns & [H1|H1] & H2)]; [left; left; assumption| |right; exists ns; auto].
      injection H1; intros; subst. left; right; auto.
Qed.

Lemma get_spec : forall D h history p x, valid_history D history -> length p = D ->
  (In x (get h (run h history) p) <->
   exists nodes key, In (nodes, x) history /\ In key (hash_cells h p) /\ In key (element_cells h nodes)).
Proof.
  intros D h history p x Hh Hp. unfold get. rewrite nodup_In, in_flat_map.
  assert (K : forall key, In key (hash_cells h p) -> length key = D).
  { intros key Hk. apply hash_cells_near in Hk. apply Forall2_length in Hk. congruence. }
  split.
  - intros (key & Hk & Hx). change (In x (content (run h history) key)) in Hx.
    unfold run in Hx.
    apply (proj1 (run_content D h history [] key x (Forall_nil _) Hh (K key Hk))) in Hx. destruct Hx as [[]|(nodes & H1 & H2)].
    exists nodes, key. auto.
  - intros (nodes & key & H1 & H2 & H3). exists key. split; [assumption|].
    change (In x (content (run h history) key)). unfold run.
    apply (proj2 (run_content D h history [] key x (Forall_nil _) Hh (K key H2))).
    right. exists nodes. auto.
Qed.

Lemma in_zbox : forall L U key, length L = length key -> length U = length key ->
  (forall k l u i, nth_error L k = Some l -> nth_error U k = Some u -> nth_error key k = Some i -> (l <= i <= u)%Z) ->
  In key (list_product (map2 zrange L U)).
Proof.
  intros L U key HL HU H. apply in_list_product. revert L U HL HU H.
  induction key as [|i key IH]; intros [|l L] [|u U] HL HU H; simpl in *; try discriminate; constructor.
  - apply in_zrange. apply (H 0%nat); reflexivity.
  - apply IH; try congruence. intros k. apply (H (S k)).
Qed.

Lemma nth_map : forall (A B : Type) (f : A -> B) l k b, nth_error (map f l) k = Some b ->
  exists a, nth_error l k = Some a /\ b = f a.
Proof.
  intros A B f l k b. rewrite nth_error_map. destruct (nth_error l k); simpl; [|discriminate].
  intros E; injection E; intros; subst; eauto.
Qed.

Lemma nth_len : forall (A B : Type) (l : list A) (m : list B) k a, length l = length m -> nth_error l k = Some a -> exists b, nth_error m k = Some b.
Proof.
  intros A B l m k a El Ea. destruct (nth_error m k) eqn:Em; [eauto|]. apply nth_error_None in Em.
  assert (nth_error l k <> None) by congruence. apply nth_error_Some in H. lia.
Qed.

Lemma floor_div_le : forall h x y, 0 < h -> x <= y -> (Zfloor (x * 1 / h) <= Zfloor (y / h))%Z.
Proof.
  intros h x y Hh Hxy. apply Zfloor_le. rewrite Rmult_1_r. unfold Rdiv.
  apply Rmult_le_compat_r; [|assumption]. left. apply Rinv_0_lt_compat. assumption.
Qed.
Lemma floor_div_le' : forall h x y, 0 < h -> x <= y -> (Zfloor (x / h) <= Zfloor (y * 1 / h))%Z.
Proof.
  intros h x y Hh Hxy. apply Zfloor_le. rewrite Rmult_1_r. unfold Rdiv.
  apply Rmult_le_compat_r; [|assumption]. left. apply Rinv_0_lt_compat. assumption.
Qed.

Lemma hash_complete : forall D h history p nodes id, 0 < h -> valid_history D history -> length p = D ->
  In (nodes, id) history -> in_bounding_box nodes p -> In id (get h (run h history) p).
Proof.
  intros D h history p nodes id Hh Hv Hp Hin Hb. apply (get_spec D); auto.
  exists nodes, (map (fun x => Zfloor (x / h)) p). split; [assumption|]. split; [apply floor_cell_in|].
  assert (He : valid_element D nodes).
  { unfold valid_history in Hv. rewrite Forall_forall in Hv. apply (Hv _ Hin). }
  apply in_zbox.
  - unfold hash_coordinates. rewrite !map_length. rewrite (colwise_length D) by assumption. auto.
  - unfold hash_coordinates. rewrite !map_length. rewrite (colwise_length D) by assumption. auto.
  - intros k l u i El Eu Ei. unfold hash_coordinates in *.
    apply nth_map in El. destruct El as (y & Ey & ->). apply nth_map in Eu. destruct Eu as (z & Ez & ->).
    apply nth_map in Ei. destruct Ei as (x & Ex & ->).
    destruct (colwise_min_spec D nodes k y He Ey) as [M1 _].
    destruct (colwise_max_spec D nodes k z He Ez) as [M2 _].
    destruct (Hb k x Ex) as [(n1 & y1 & N1 & E1 & L1) (n2 & y2 & N2 & E2 & L2)].
    pose proof (M1 _ _ N1 E1). pose proof (M2 _ _ N2 E2). split.
    + apply floor_div_le; lra.
    + apply floor_div_le'; lra.
Qed.

Lemma hash_sound : forall D h history p id, 0 < h -> valid_history D history -> length p = D ->
  In id (get h (run h history) p) ->
  exists nodes, In (nodes, id) history /\
    forall k x, nth_error p k = Some x ->
      (exists n y, In n nodes /\ nth_error n k = Some y /\ y < x + (1 + EPSILON) * h) /\
      (exists n y, In n nodes /\ nth_error n k = Some y /\ x - (1 + EPSILON) * h < y).
Proof.
  intros D h history p id Hh Hv Hp Hg. apply (get_spec D) in Hg; auto.
  destruct Hg as (nodes & key & Hin & Hk & Hc). exists nodes. split; [assumption|].
  intros k x Ex.
  assert (He : valid_element D nodes).
  { unfold valid_history in Hv. rewrite Forall_forall in Hv. apply (Hv _ Hin). }
  apply hash_cells_near in Hk. pose proof (Forall2_length _ _ _ _ _ Hk) as Lk.
  destruct (nth_len _ _ p key k x Lk Ex) as [i Ei].
  pose proof (Forall2_nth' _ _ _ _ _ _ _ _ Hk Ex Ei) as Ni. simpl in Ni.
  apply in_list_product in Hc. pose proof (Forall2_length _ _ _ _ _ Hc) as Lc.
  assert (LM : length (hash_coordinates h (colwise Rmin nodes)) = length p)
    by (unfold hash_coordinates; rewrite map_length, (colwise_length D); auto).
  assert (LX : length (hash_coordinates h (colwise Rmax nodes)) = length p)
    by (unfold hash_coordinates; rewrite map_length, (colwise_length D); auto).
  destruct (nth_len _ _ p _ k x (eq_sym LM) Ex) as [l El].
  destruct (nth_len _ _ p _ k x (eq_sym LX) Ex) as [u Eu].
  apply in_box in Hc; [|congruence]. destruct Hc as [H1 H2].
  pose proof (Forall2_nth' _ _ _ _ _ _ _ _ H1 El Ei) as Hli.
  pose proof (Forall2_nth' _ _ _ _ _ _ _ _ H2 Ei Eu) as Hui. simpl in *.
  unfold hash_coordinates in El, Eu.
  apply nth_map in El. destruct El as (y & Ey & ->). apply nth_map in Eu. destruct Eu as (z & Ez & ->).
  destruct (colwise_min_spec D nodes k y He Ey) as [_ (n1 & N1 & E1)].
  destruct (colwise_max_spec D nodes k z He Ez) as [_ (n2 & N2 & E2)].
  assert (Sc : forall r, r / h * h = r) by (intros; field; lra).
  split.
  - exists n1, y. split; [assumption|]. split; [assumption|].
    rewrite Rmult_1_r in Hli. apply IZR_le in Hli. pose proof (Zfloor_ub (y / h)).
    rewrite <- (Sc y), <- (Sc x). nra.
  - exists n2, z. split; [assumption|]. split; [assumption|].
    rewrite Rmult_1_r in Hui. apply IZR_le in Hui. pose proof (Zfloor_lb (z / h)).
    rewrite <- (Sc z), <- (Sc x). nra.
Qed.
