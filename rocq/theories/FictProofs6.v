(** Weights of the leaves and of the quadrature points. *)

From Coq Require Import ZArith Reals Lra Lia Permutation.
From Coq Require Import List Arith Bool.
From Verif Require Import GridModel GridSpec GridProofs GridGeoModel GridGeoSpec GridGeoProofs ShapeModel Sums FictModel FictSpec FictProofs FictProofs2
  FictProofs3 FictProofs4 FictProofs5.
Import ListNotations.
Open Scope R_scope.

Lemma sub_box_last : forall D e p i, sub_box D e (p ++ [i]) = sub_box D (nth i (get_subcells_elements D e) (unit_box D)) p.
Proof. intros D e p i. induction p as [|j p IH]; simpl; [reflexivity|rewrite IH; reflexivity]. Qed.

Lemma subdivide_leaf : forall D cl, (D = 2 \/ D = 3)%nat -> forall n e w p a,
  subtree (subdivide D cl n e w) p = Some (Leaf a) ->
  fst a = fst (cl (sub_box D e p)) /\ snd a = w / 2 ^ (D * length p) /\ (length p <= n)%nat /\ good D p /\
  ((length p < n)%nat -> snd (cl (sub_box D e p)) = false) /\
  (forall v u, p = v ++ u -> v <> [] -> snd (cl (sub_box D e u)) = true).
Proof.
  intros D cl HD. induction n as [|n IH]; intros e w p a H; simpl in H.
  - destruct (cl e) as [ty sub] eqn:E. apply subtree_leaf in H as [-> H]. inversion H; subst. simpl. rewrite E. simpl.
    rewrite Nat.mul_0_r. simpl. repeat split; try lia; try constructor; try lra.
    intros v u Hv Hn. destruct v; [congruence|discriminate].
  - destruct (cl e) as [ty sub] eqn:E. destruct sub.
    + destruct p as [|i p _] using rev_ind; [discriminate|]. rewrite subtree_last, nth_error_map in H.
      destruct (nth_error (get_subcells_elements D e) i) as [e'|] eqn:Ei; [|discriminate]. cbn [option_map] in H.
      destruct (IH _ _ _ _ H) as (H1 & H2 & H3 & H4 & H5 & H6).
      assert (En : nth i (get_subcells_elements D e) (unit_box D) = e') by (apply nth_error_nth; exact Ei).
      rewrite sub_box_last, En. rewrite app_length. cbn [length].
      assert (Hi : (i < 2 ^ D)%nat).
      { assert (Hl : (i < length (get_subcells_elements D e))%nat) by (apply nth_error_Some; congruence).
        unfold get_subcells_elements in Hl. rewrite map_length in Hl. destruct HD as [->| ->]; exact Hl. }
      split; [exact H1|]. split; [|split; [lia|split]].
      * rewrite H2. replace (D * (length p + 1))%nat with (D + D * length p)%nat by lia. rewrite pow_add.
        assert (forall k, 2 ^ k <> 0) by (intro; apply pow_nonzero; lra). field. auto.
      * apply Forall_app. split; [exact H4|]. repeat constructor. exact Hi.
      * split; [intros; apply H5; lia|]. intros v u Hv Hn. destruct u as [|j u _] using rev_ind.
        -- cbn [sub_box]. rewrite E. reflexivity.
        -- rewrite app_assoc in Hv. apply app_inj_tail in Hv as [Hp <-]. rewrite sub_box_last, En. apply (H6 v u); auto.
    + apply subtree_leaf in H as [-> H]. inversion H; subst. simpl. rewrite E. simpl.
      rewrite Nat.mul_0_r. simpl. repeat split; try lia; try constructor; try lra.
      intros v u Hv Hn. destruct v; [congruence|discriminate].
Qed.

Lemma Rsum_concat : forall l, Rsum (concat l) = Rsum (map Rsum l).
Proof. induction l as [|a l IH]; simpl; [reflexivity|]. rewrite Rsum_app, IH. reflexivity. Qed.

Lemma map_mapi : forall (A B C : Type) (h : B -> C) (f : nat -> A -> B) l k, map h (mapi f k l) = mapi (fun i a => h (f i a)) k l.
Proof. induction l as [|a l IH]; intros k; simpl; [reflexivity|rewrite IH; reflexivity]. Qed.

Lemma mapi_ext : forall (A B : Type) (f h : nat -> A -> B) l k, (forall i a, nth_error l i = Some a -> f (k + i)%nat a = h (k + i)%nat a) -> mapi f k l = mapi h k l.
Proof.
  induction l as [|a l IH]; intros k H; simpl; [reflexivity|]. f_equal.
  - specialize (H 0%nat a eq_refl). rewrite Nat.add_0_r in H. exact H.
  - apply IH. intros i b E. specialize (H (S i) b E). rewrite Nat.add_succ_r in H. exact H.
Qed.

Lemma Rsum_mapi_scal : forall (A : Type) k (f : nat -> A -> R) l i, Rsum (mapi (fun i a => k * f i a) i l) = k * Rsum (mapi f i l).
Proof. induction l as [|a l IH]; intros i; simpl; [lra|]. rewrite IH. lra. Qed.

(** Leaves of a node *)
Lemma leaf_sum_node : forall (A : Type) (childs : list (tree A)) p F,
  Rsum (map F (leaf_paths p (Node childs))) = Rsum (mapi (fun i c => Rsum (map F (leaf_paths (i :: p) c))) 0 childs).
Proof. intros A childs p F. simpl. rewrite concat_map, Rsum_concat, !map_mapi. reflexivity. Qed.

Lemma weights_sum : forall D cl, (D = 2 \/ D = 3)%nat -> forall n e w p F,
  (forall v a, subtree (subdivide D cl n e w) v = Some (Leaf a) -> F (v ++ p) = snd a) ->
  Rsum (map F (leaf_paths p (subdivide D cl n e w))) = w.
Proof.
  intros D cl HD. induction n as [|n IH]; intros e w p F H; simpl in *; destruct (cl e) as [ty sub].
  - simpl. specialize (H [] _ eq_refl). simpl in H. rewrite H. simpl. lra.
  - destruct sub.
    2: { simpl. specialize (H [] _ eq_refl). simpl in H. rewrite H. simpl. lra. }
    set (childs := map (fun e' => subdivide D cl n e' (w / 2 ^ D)) (get_subcells_elements D e)) in *.
    rewrite leaf_sum_node.
    assert (E : forall i c, nth_error childs i = Some c -> Rsum (map F (leaf_paths (i :: p) c)) = w / 2 ^ D).
    { intros i c Ei. unfold childs in Ei. rewrite nth_error_map in Ei. destruct (nth_error (get_subcells_elements D e) i) as [e'|] eqn:Ee; [|discriminate].
      inversion Ei; subst c. apply IH. intros v a Hv. specialize (H (v ++ [i]) a). rewrite <- app_assoc in H. apply H.
      rewrite subtree_last. unfold childs. rewrite nth_error_map, Ee. exact Hv. }
    rewrite (mapi_ext _ _ _ (fun _ _ => w / 2 ^ D) childs 0) by (intros i c Ei; apply E; exact Ei).
    unfold childs, get_subcells_elements. destruct HD as [->| ->]; simpl; lra.
Qed.

Lemma cell_weight_sum : forall type (t : tree R) p F,
  (forall v a, subtree t v = Some (Leaf a) -> F (v ++ p) = if retained (type (v ++ p)) then a else 0) ->
  get_cell_weight type p t = Rsum (map F (leaf_paths p t)).
Proof.
  intros type t. induction t as [w|childs IH] using tree_ind'; intros p F H.
  - simpl. specialize (H [] w eq_refl). simpl in H. rewrite H. lra.
  - rewrite leaf_sum_node. cbn [get_cell_weight]. change (fold_right Rplus 0) with Rsum. f_equal. apply mapi_ext. intros i c E.
    rewrite Forall_forall in IH. apply IH; [eapply nth_error_In; eassumption|].
    intros v a Hv. specialize (H (v ++ [i]) a). rewrite <- app_assoc in H. apply H. rewrite subtree_last, E. exact Hv.
Qed.

Lemma gauss_length : forall D, (D = 2 \/ D = 3)%nat -> length (gauss_nodes D) = (2 ^ D)%nat.
Proof. intros D [-> | ->]; reflexivity. Qed.

Lemma gauss_sum : forall D type, (D = 2 \/ D = 3)%nat -> forall t levels e p, full D t ->
  Rsum (map snd (get_gauss_cells D type levels e p t)) = 2 ^ D * get_cell_weight type p t.
Proof.
  intros D type HD t. induction t as [w|childs IH] using tree_ind'; intros levels e p Hf.
  - simpl. rewrite map_map. destruct (retained (type p)); destruct HD as [->| ->]; simpl; lra.
  - inversion Hf as [|c Hl Hc]; subst. destruct levels as [|levels].
    + cbn [get_gauss_cells get_cell_weight]. rewrite map_mapi. cbn [snd]. change (fold_right Rplus 0) with Rsum.
      rewrite gauss_length by exact HD.
      destruct HD as [->| ->]; simpl in Hl; do 4 (destruct childs as [|? childs]; [discriminate|]); try do 4 (destruct childs as [|? childs]; [discriminate|]);
        destruct childs as [|? childs]; try discriminate; simpl; lra.
    + cbn [get_gauss_cells get_cell_weight]. rewrite concat_map, Rsum_concat, !map_mapi. change (fold_right Rplus 0) with Rsum.
      rewrite <- Rsum_mapi_scal. f_equal. apply mapi_ext. intros i c E. rewrite map_map. cbn [snd].
      rewrite Forall_forall in IH, Hc. apply IH; [eapply nth_error_In; eassumption|]. apply Hc. eapply nth_error_In; eassumption.
Qed.

Lemma product_scaled : forall (l : list R) k, fold_right Rmult 1 (map (fun x => x / k) l) = fold_right Rmult 1 l / k ^ length l \/ k = 0.
Proof.
  intros l k. destruct (Req_dec k 0) as [E|E]; [right; exact E|left]. induction l as [|x l IH]; simpl; [lra|]. rewrite IH. field. split; [apply pow_nonzero|]; assumption.
Qed.

Lemma element_volume : forall g p, valid_grid g -> (length g = 2 \/ length g = 3)%nat ->
  okp g p -> fold_right Rmult 1 (sides (element g p)) = fold_right Rmult 1 (map ax_H g) / 2 ^ (length g * length (snd p)).
Proof.
  intros g [top p] Hg HD [Ht Hp]. destruct (element_ok g Hg HD p top Ht Hp) as [[_ Hs] H]. cbn [fst snd] in *.
  assert (E : sides (element g (top, p)) = map (fun x => x / 2 ^ length p) (map ax_H g)).
  { apply nth_ext with 0 0; [rewrite !map_length; exact Hs|]. intros a Ha. rewrite Hs in Ha.
    rewrite (proj1 (H a Ha)). rewrite map_map.
    rewrite (nth_indep _ 0 ((fun x => ax_H x / 2 ^ length p) axis0)) by (rewrite map_length; exact Ha). symmetry. apply (map_nth (fun x => ax_H x / 2 ^ length p)). }
  rewrite E. destruct (product_scaled (map ax_H g) (2 ^ length p)) as [P|P]; [|exfalso; apply (pow_nonzero 2 (length p)); [lra|exact P]].
  rewrite P, map_length, <- pow_mult, Nat.mul_comm. reflexivity.
Qed.

(** Sums over the leaves of the grid *)
Lemma regions_permutation : forall (A : Type) g (cells : list (tree A)) type st, valid_cells g cells ->
  labelled A g cells type st -> Permutation (concat (map snd (regions st))) (all_leaves cells).
Proof.
  intros A g cells type st Hv L. apply NoDup_Permutation; [|apply all_leaves_NoDup|].
  - pose proof (labelled_unique A g cells type st L) as U. destruct L as [O _].
    assert (N : forall i r, nth_error (regions st) i = Some r -> NoDup (snd r)).
    { intros i [ty l] E. destruct (o_reg _ _ _ st O i ty l E) as [H _]. exact H. }
    clear O. revert U N. generalize (regions st). induction l as [|r l IH]; intros U N; simpl; [constructor|].
    apply NoDup_app_disj; [apply (N 0%nat r eq_refl)| |].
    + apply IH; [|intros i r' E; apply (N (S i) r' E)]. intros i j r1 r2 p E1 E2 I1 I2.
      specialize (U (S i) (S j) r1 r2 p E1 E2 I1 I2). lia.
    + intros p I1 I2. apply in_concat in I2. destruct I2 as (m & Hm & I2). apply in_map_iff in Hm. destruct Hm as (r2 & <- & I3).
      apply In_nth_error in I3. destruct I3 as (j & E). specialize (U 0%nat (S j) r r2 p eq_refl E I1 I2). discriminate.
  - intros p. rewrite in_all_leaves, in_concat. split.
    + intros (m & Hm & I). apply in_map_iff in Hm. destruct Hm as ([ty l] & <- & I3). apply In_nth_error in I3. destruct I3 as (i & E).
      destruct L as [O _]. destruct (o_reg _ _ _ st O i ty l E) as (_ & c & _ & H3 & _ & H4). cbn [snd] in I.
      apply H4 in I. apply conn_leaf in I; [|apply (nb_sym A g cells Hv)|exact H3]. apply in_all_leaves. exact I.
    + intros Lp. destruct (labelled_region A g cells Hv type st L p Lp) as (i & ty & l & E & I & _).
      exists l. split; [|exact I]. apply in_map_iff. exists (ty, l). split; [reflexivity|eapply nth_error_In; exact E].
Qed.

Lemma all_weights : forall g classify n, valid_grid g -> (length g = 2 \/ length g = 3)%nat ->
  let cells := subdivide_intersected_cells g classify n in
  Rsum (map (leaf_weight cells) (all_leaves cells)) = IZR (number_of_cells (subdivisions g)).
Proof.
  intros g classify n Hg HD cells. unfold all_leaves. rewrite concat_map, Rsum_concat, !map_mapi.
  assert (Hn : (0 <= number_of_cells (subdivisions g))%Z).
  { destruct Hg as [_ F]. unfold number_of_cells. clear -F. induction F as [|a l [Ha _] F IH]; simpl; [lia|]. apply Z.mul_nonneg_nonneg; lia. }
  rewrite (mapi_ext _ _ _ (fun _ _ => 1) cells 0).
  - assert (E : Z.of_nat (length cells) = number_of_cells (subdivisions g)).
    { unfold cells, subdivide_intersected_cells. rewrite map_length, seq_length. lia. }
    rewrite <- E. rewrite <- INR_IZR_INZ. clear E. clearbody cells. generalize 0%nat. induction cells as [|c l IH]; intros k; [reflexivity|].
    cbn [mapi length]. rewrite S_INR. simpl. rewrite IH. lra.
  - intros i t E. rewrite Nat.add_0_l in *. rewrite map_map.
    assert (E' : nth_error cells i = Some t) by exact E. unfold cells, subdivide_intersected_cells in E. rewrite nth_error_map in E.
    destruct (nth_error (seq 0 _) i) as [c|]; [|discriminate]. inversion E; subst t.
    apply (weights_sum (length g) (classify c) HD n _ 1 []). intros v a Hv. rewrite app_nil_r.
    unfold leaf_weight, leaf_data. cbn [fst snd]. rewrite E', Hv. destruct a; reflexivity.
Qed.
