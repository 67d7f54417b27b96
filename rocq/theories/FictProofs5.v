(** Proofs about the fictitious grid, continued: the regions of the grid, outside and inside (C36, C37). *)

From Coq Require Import ZArith Reals Lra Lia Relations.
From Coq Require Import List Arith Bool.
From Verif Require Import GridModel GridSpec GridProofs GridGeoModel GridGeoSpec GridGeoProofs FictModel FictSpec FictProofs FictProofs2 FictProofs3 FictProofs4.
Import ListNotations.
Open Scope nat_scope.
Local Arguments Z.mul : simpl never.

(** * The leaves *)

Lemma in_leaf_paths : forall (A : Type) (t : tree A) p v,
  In v (leaf_paths p t) <-> exists w a, v = w ++ p /\ subtree t w = Some (Leaf a).
Proof.
  intros A t. induction t as [a|childs IH] using tree_ind'; intros p v; simpl.
  - split.
    + intros [<-|[]]. exists [], a. auto.
    + intros (w & b & -> & H). apply subtree_leaf in H as [-> _]. left. reflexivity.
  - rewrite in_concat. rewrite Forall_forall in IH. split.
    + intros (l & Hl & Hv). apply in_mapi in Hl. destruct Hl as (i & c & E & ->). simpl in Hv.
      apply IH in Hv; [|eapply nth_error_In; eassumption]. destruct Hv as (w & a & -> & Hw).
      exists (w ++ [i]), a. split; [rewrite <- app_assoc; reflexivity|]. rewrite subtree_last, E. exact Hw.
    + intros (w & a & -> & Hw). destruct w as [|i w] using rev_ind; [discriminate|]. clear IHw.
      rewrite subtree_last in Hw. destruct (nth_error childs i) as [c|] eqn:E; [|discriminate].
      exists (leaf_paths (i :: p) c). split; [apply in_mapi; exists i, c; auto|].
      apply IH; [eapply nth_error_In; eassumption|]. exists w, a. rewrite <- app_assoc. auto.
Qed.

Lemma NoDup_concat_mapi : forall (A B : Type) (f : nat -> A -> list B) l k,
  (forall i a, nth_error l i = Some a -> NoDup (f (k + i) a)) ->
  (forall i j a b x, nth_error l i = Some a -> nth_error l j = Some b -> In x (f (k + i) a) -> In x (f (k + j) b) -> i = j) ->
  NoDup (concat (mapi f k l)).
Proof.
  intros A B f. induction l as [|a l IH]; intros k H1 H2; simpl; [constructor|].
  apply NoDup_app_disj.
  - specialize (H1 0 a eq_refl). rewrite Nat.add_0_r in H1. exact H1.
  - apply IH.
    + intros i b E. replace (S k + i) with (k + S i) by lia. apply H1. exact E.
    + intros i j b c x E1 E2 I1 I2. replace (S k + i) with (k + S i) in I1 by lia. replace (S k + j) with (k + S j) in I2 by lia.
      assert (S i = S j) by (eapply (H2 (S i) (S j)); eassumption). lia.
  - intros x I1 I2. apply in_concat in I2. destruct I2 as (l0 & Hl0 & I2). apply in_mapi in Hl0.
    destruct Hl0 as (i & b & E & ->). replace (S k + i) with (k + S i) in I2 by lia.
    assert (0 = S i); [|lia]. apply (H2 0 (S i) a b x); auto. rewrite Nat.add_0_r. exact I1.
Qed.

Lemma leaf_paths_NoDup : forall (A : Type) (t : tree A) p, NoDup (leaf_paths p t).
Proof.
  intros A t. induction t as [a|childs IH] using tree_ind'; intros p; simpl.
  - repeat constructor. simpl. tauto.
  - rewrite Forall_forall in IH. apply NoDup_concat_mapi; simpl.
    + intros i c E. apply IH. eapply nth_error_In; eassumption.
    + intros i j c d x E1 E2 I1 I2. apply in_leaf_paths in I1. apply in_leaf_paths in I2.
      destruct I1 as (w & _ & -> & _). destruct I2 as (w' & _ & I2 & _).
      change (i :: p) with ([i] ++ p) in I2. change (j :: p) with ([j] ++ p) in I2. rewrite !app_assoc in I2.
      apply app_inv_tail in I2. apply app_inj_tail in I2. apply I2.
Qed.

Lemma in_all_leaves : forall (A : Type) (cells : list (tree A)) p, In p (all_leaves cells) <-> a_leaf cells p.
Proof.
  intros A cells [top p]. unfold all_leaves, a_leaf, leaf. rewrite in_concat. cbn [fst snd]. split.
  - intros (l & Hl & Hp). apply in_mapi in Hl. destruct Hl as (i & t & E & ->). simpl in Hp.
    apply in_map_iff in Hp. destruct Hp as (v & Ev & Hv). inversion Ev; subst.
    apply in_leaf_paths in Hv. destruct Hv as (w & a & -> & Hw). rewrite app_nil_r. exists a, t. auto.
  - intros (a & t & E & S). exists (map (pair top) (leaf_paths [] t)). split.
    + apply in_mapi. exists top, t. auto.
    + apply in_map. apply in_leaf_paths. exists p, a. rewrite app_nil_r. auto.
Qed.

Lemma all_leaves_NoDup : forall (A : Type) (cells : list (tree A)), NoDup (all_leaves cells).
Proof.
  intros A cells. apply NoDup_concat_mapi; simpl.
  - intros i t _. apply FinFun.Injective_map_NoDup; [|apply leaf_paths_NoDup]. intros x y H. inversion H. reflexivity.
  - intros i j t t' [top p] _ _ I1 I2. apply in_map_iff in I1. apply in_map_iff in I2.
    destruct I1 as (v & E1 & _). destruct I2 as (v' & E2 & _). congruence.
Qed.

Lemma face_to_face_sym : forall D axis dir e f, (dir = 1 \/ dir = -1)%Z ->
  face_to_face D axis dir e f <-> face_to_face D axis (- dir) f e.
Proof.
  intros D axis dir e f Hd. unfold face_to_face. destruct Hd as [-> | ->]; cbn [Z.ltb Z.compare Z.opp]; split; intros [H1 H2];
    (split; [symmetry; exact H1|]); intros a Ha Hn; destruct (H2 a Ha Hn); split; assumption.
Qed.

Lemma neighbours_sym : forall (A : Type) g (cells : list (tree A)) p q, neighbours g cells p q -> neighbours g cells q p.
Proof.
  intros A g cells p q (H1 & H2 & axis & dir & Ha & Hd & H). split; [exact H2|]. split; [exact H1|].
  exists axis, (- dir)%Z. split; [exact Ha|]. split; [destruct Hd as [-> | ->]; auto|].
  apply (proj1 (face_to_face_sym _ _ _ _ _ Hd)). exact H.
Qed.

(** * Regions *)

Section Regions.
Variable A : Type.
Variable g : grid.
Variable cells : list (tree A).
Hypothesis Hv : valid_cells g cells.
Variable type : ptr -> cell_type.
Let ns := subdivisions g.

Lemma faces_nb : forall p, a_leaf cells p ->
  exists fs, faces_of ns cells p = Some fs /\
    (forall q, In q (concat fs) <-> neighbours g cells p q) /\
    (In [] fs <-> at_border g p).
Proof.
  intros p (a & Lp). destruct Hv as (Hg & HD & Hc & Hf).
  destruct (faces_of_spec g Hg HD A cells Hc Hf p a Lp) as (fs & E & F). exists fs. split; [exact E|].
  assert (Hdir : forall f, In f fs <-> exists axis dir, (axis < length g) /\ (dir = 1 \/ dir = -1)%Z /\ get_neighbors ns cells p axis dir = Some f).
  { intros f. split.
    - intros I. clear E. assert (exists ad, In ad (directions g) /\ get_neighbors ns cells p (fst ad) (snd ad) = Some f) as ([axis dir] & I1 & I2).
      { revert I. induction F as [|ad l ds ls H F IH]; [intros []|]. intros [<-|I].
        - exists ad. split; [left; reflexivity|exact H].
        - destruct (IH I) as (ad' & I1 & I2). exists ad'. split; [right; exact I1|exact I2]. }
      apply in_directions in I1. exists axis, dir. split; [apply I1|]. split; [apply I1|exact I2].
    - intros (axis & dir & Ha & Hd & Ef).
      assert (I : In (axis, dir) (directions g)) by (apply in_directions; split; assumption). clear E.
      revert I. induction F as [|ad l ds ls H F IH]; [intros []|]. intros [->|I].
      + left. cbn [fst snd] in H. unfold ns in Ef. rewrite H in Ef. inversion Ef. reflexivity.
      + right. apply IH. exact I. }
  split.
  - intros q. rewrite in_concat. split.
    + intros (f & I1 & I2). apply Hdir in I1. destruct I1 as (axis & dir & Ha & Hd & Ef).
      destruct (neighbors_exact g Hg HD A cells Hc Hf axis Ha dir Hd p a Lp) as (l & El & _ & Hl).
      unfold ns in Ef. rewrite El in Ef. inversion Ef; subst l. apply Hl in I2. destruct I2 as [L2 F2].
      split; [exists a; exact Lp|]. split; [exact L2|]. exists axis, dir. auto.
    + intros (_ & L2 & axis & dir & Ha & Hd & F2).
      destruct (neighbors_exact g Hg HD A cells Hc Hf axis Ha dir Hd p a Lp) as (l & El & _ & Hl).
      exists l. split; [apply Hdir; exists axis, dir; auto|]. apply Hl. auto.
  - rewrite Hdir. split; intros (axis & dir & Ha & Hd & H); exists axis, dir; (split; [exact Ha|]); (split; [exact Hd|]).
    + apply (neighbors_border g Hg HD A cells Hc Hf axis dir p a Lp Ha Hd). exact H.
    + apply (neighbors_border g Hg HD A cells Hc Hf axis dir p a Lp Ha Hd). exact H.
Qed.

Let faces := faces_of ns cells.
Let leaves := all_leaves cells.

Lemma in_nb : forall p q, In p leaves -> (In q (nb faces p) <-> neighbours g cells p q).
Proof.
  intros p q Hp. apply in_all_leaves in Hp. destruct (faces_nb p Hp) as (fs & E & H & _). unfold nb, faces. rewrite E. apply H.
Qed.

Lemma nb_sym : forall p q, In p leaves -> In q (nb faces p) -> In q leaves /\ In p (nb faces q).
Proof.
  intros p q Hp Hq. apply in_nb in Hq; [|exact Hp].
  assert (Lq : In q leaves) by (apply in_all_leaves; apply Hq). split; [exact Lq|].
  apply in_nb; [exact Lq|]. apply neighbours_sym. exact Hq.
Qed.

Lemma adj_iff : forall p q, adj faces type leaves p q <-> neighbours g cells p q /\ type p = type q.
Proof.
  intros p q. unfold adj. split.
  - intros (H1 & H2 & H3). split; [apply in_nb; assumption|exact H3].
  - intros (H1 & H2). assert (In p leaves) by (apply in_all_leaves; apply H1). split; [assumption|]. split; [apply in_nb; assumption|exact H2].
Qed.

Lemma conn_iff : forall p q, conn faces type leaves p q <-> same_region g cells type p q.
Proof.
  intros p q. unfold conn, same_region. split; intros H; induction H as [x y H|x|x y z _ I1 _ I2]; try apply rt_refl.
  - apply rt_step. apply adj_iff. exact H.
  - eapply rt_trans; eassumption.
  - apply rt_step. apply adj_iff. exact H.
  - eapply rt_trans; eassumption.
Qed.

Lemma flag_iff : forall p, a_leaf cells p ->
  flag_of faces type p = true <-> at_border g p \/ exists q, neighbours g cells p q /\ type q <> type p.
Proof.
  intros p Lp. destruct (faces_nb p Lp) as (fs & E & H1 & H2). unfold flag_of, faces. rewrite E. rewrite existsb_exists. split.
  - intros (f & I & F). destruct f as [|q f].
    + left. apply H2. exact I.
    + right. unfold face_flag in F. apply existsb_exists in F. destruct F as (q' & I' & F).
      exists q'. split; [apply H1; apply in_concat; exists (q :: f); auto|].
      destruct (type_eqb_spec (type q') (type p)); [discriminate|assumption].
  - intros [B|(q & N & T)].
    + exists []. split; [apply H2; exact B|reflexivity].
    + apply H1 in N. apply in_concat in N. destruct N as (f & I & I'). exists f. split; [exact I|].
      destruct f as [|q0 f]; [destruct I'|]. unfold face_flag. apply existsb_exists. exists q. split; [exact I'|].
      destruct (type_eqb_spec (type q) (type p)); [contradiction|reflexivity].
Qed.

(** Everything about the result of the clustering. *)
Lemma create_regions_spec : exists st, create_regions ns cells type = Some (Ok st) /\
  outer faces type leaves st /\ forall y, a_leaf cells y -> region_id st y <> (-1)%Z.
Proof.
  destruct (regions_spec faces type leaves) as (st & E & O & N).
  - intros p Hp. apply in_all_leaves in Hp. destruct (faces_nb p Hp) as (fs & E & _). exists fs. exact E.
  - apply nb_sym.
  - exists st. split; [exact E|]. split; [exact O|]. intros y Hy. apply N. apply in_all_leaves. exact Hy.
Qed.

Definition labelled (st : labels) : Prop := outer faces type leaves st /\ forall y, a_leaf cells y -> region_id st y <> (-1)%Z.

Lemma labelled_region : forall st, labelled st -> forall p, a_leaf cells p ->
  exists i ty l, nth_error (regions st) i = Some (ty, l) /\ In p l /\ region_id st p = Z.of_nat i /\ ty = type p /\
    forall q, In q l <-> same_region g cells type p q.
Proof.
  intros st [O N] p Lp. apply in_all_leaves in Lp as Ip.
  destruct (o_id _ _ _ st O p Ip) as [C|(i & [ty l] & E & Ei & I)]; [exfalso; exact (N p Lp C)|].
  exists i, ty, l. split; [exact E|]. split; [exact I|]. split; [exact Ei|].
  destruct (o_reg _ _ _ st O i ty l E) as (_ & c & _ & Hc & Ht & Cl).
  assert (Cp : conn faces type leaves c p) by (apply Cl; exact I).
  split; [rewrite <- Ht; exact (conn_type faces type leaves c p Cp)|].
  intros q. rewrite Cl, <- conn_iff. split; intros H.
  - eapply rt_trans; [apply (conn_sym faces type leaves nb_sym); exact Cp|exact H].
  - eapply rt_trans; [exact Cp|exact H].
Qed.

Lemma labelled_unique : forall st, labelled st -> forall i j r s p,
  nth_error (regions st) i = Some r -> nth_error (regions st) j = Some s -> In p (snd r) -> In p (snd s) -> i = j.
Proof.
  intros st [O _] i j r s p E1 E2 I1 I2. pose proof (o_in _ _ _ st O i r p E1 I1). pose proof (o_in _ _ _ st O j s p E2 I2). lia.
Qed.

End Regions.

(** * Tagging *)

Lemma assign_all_spec : forall (B : Type) (l : list ptr) (f : ptr -> B) b p,
  assign_all f l b p = if in_dec ptr_dec p l then b else f p.
Proof.
  intros B. unfold assign_all. induction l as [|q l IH]; intros f b p; cbn [fold_left].
  - destruct (in_dec ptr_dec p []) as [[]|]; reflexivity.
  - rewrite IH. destruct (in_dec ptr_dec p l) as [I|I]; destruct (in_dec ptr_dec p (q :: l)) as [I'|I']; try reflexivity.
    + exfalso. apply I'. right. exact I.
    + destruct I' as [->|I']; [apply assign_same|contradiction].
    + apply assign_other. intros ->. apply I'. left. reflexivity.
Qed.

Lemma retag_spec : forall (b : cell_type * list ptr -> bool) (T : cell_type) rs acc ty,
  let r := fold_left (fun s r => if b r then (fst s ++ [(T, snd r)], assign_all (snd s) (snd r) T) else (fst s ++ [r], snd s)) rs (acc, ty) in
  fst r = acc ++ map (fun r => if b r then (T, snd r) else r) rs /\
  forall p, snd r p = if existsb (fun r => b r && (if in_dec ptr_dec p (snd r) then true else false)) rs then T else ty p.
Proof.
  intros b T. induction rs as [|r rs IH]; intros acc ty; cbn [fold_left map existsb].
  - rewrite app_nil_r. auto.
  - destruct (b r) eqn:E; cbn [fst snd].
    + destruct (IH (acc ++ [(T, snd r)]) (assign_all ty (snd r) T)) as [H1 H2]. split.
      * rewrite H1, <- app_assoc. reflexivity.
      * intros p. rewrite H2, assign_all_spec. cbn [andb].
        destruct (existsb _ rs); [rewrite orb_true_r; reflexivity|]. rewrite orb_false_r.
        destruct (in_dec ptr_dec p (snd r)); reflexivity.
    + destruct (IH (acc ++ [r]) ty) as [H1 H2]. split.
      * rewrite H1, <- app_assoc. reflexivity.
      * intros p. rewrite H2. reflexivity.
Qed.

(** With disjoint regions, only the region of the cell matters. *)
Lemma retag_region : forall (b : cell_type * list ptr -> bool) rs i r p,
  (forall i j r s, nth_error rs i = Some r -> nth_error rs j = Some s -> In p (snd r) -> In p (snd s) -> i = j) ->
  nth_error rs i = Some r -> In p (snd r) ->
  existsb (fun r => b r && (if in_dec ptr_dec p (snd r) then true else false)) rs = b r.
Proof.
  intros b rs i r p U E I. destruct (existsb _ rs) eqn:X.
  - apply existsb_exists in X. destruct X as (s & Is & Hs). apply andb_prop in Hs. destruct Hs as [Hb Hin].
    destruct (in_dec ptr_dec p (snd s)) as [I'|]; [|discriminate].
    apply In_nth_error in Is. destruct Is as (j & Ej). assert (i = j) by (eapply U; eassumption). subst j. congruence.
  - destruct (b r) eqn:Hb; [|reflexivity]. rewrite <- X. apply existsb_exists. exists r. split; [eapply nth_error_In; eassumption|].
    rewrite Hb. destruct (in_dec ptr_dec p (snd r)); [reflexivity|contradiction].
Qed.

Section Tagging.
Variable A : Type.
Variable g : grid.
Variable cells : list (tree A).
Hypothesis Hv : valid_cells g cells.
Variable type : ptr -> cell_type.
Let ns := subdivisions g.
Variable st : labels.
Hypothesis Hst : labelled A g cells type st.

Definition is_out (r : cell_type * list ptr) : bool := type_eqb (fst r) Undefined && existsb (touches_border ns) (snd r).
Definition retagged (b : cell_type * list ptr -> bool) (T : cell_type) (r : cell_type * list ptr) : cell_type * list ptr :=
  if b r then (T, snd r) else r.
Definition is_undefined (r : cell_type * list ptr) : bool := type_eqb (fst r) Undefined.

Lemma snd_retagged : forall b T r, snd (retagged b T r) = snd r.
Proof. intros. unfold retagged. destruct (b r); reflexivity. Qed.

Lemma tagging_spec :
  let s := tag_inside (tag_outside ns (regions st, type)) in
  fst s = map (fun r => retagged is_undefined Inside (retagged is_out Outside r)) (regions st) /\
  (forall p, a_leaf cells p -> exists i r, nth_error (regions st) i = Some r /\ In p (snd r) /\
     snd s p = if is_out r then Outside else if is_undefined r then Inside else type p).
Proof.
  assert (H : fst (tag_outside ns (regions st, type)) = map (retagged is_out Outside) (regions st) /\
    forall p, snd (tag_outside ns (regions st, type)) p =
      if existsb (fun r => is_out r && (if in_dec ptr_dec p (snd r) then true else false)) (regions st) then Outside else type p)
    by exact (retag_spec is_out Outside (regions st) [] type).
  destruct H as [H1 H2]. set (s1 := tag_outside ns (regions st, type)) in *.
  assert (H : fst (tag_inside s1) = map (retagged is_undefined Inside) (fst s1) /\
    forall p, snd (tag_inside s1) p =
      if existsb (fun r => is_undefined r && (if in_dec ptr_dec p (snd r) then true else false)) (fst s1) then Inside else snd s1 p)
    by exact (retag_spec is_undefined Inside (fst s1) [] (snd s1)).
  destruct H as [H3 H4]. cbn zeta.
  split.
  - rewrite H3, H1, map_map. reflexivity.
  - intros p Lp. destruct (labelled_region A g cells Hv type st Hst p Lp) as (i & ty & l & E & I & _ & _ & _).
    exists i, (ty, l). split; [exact E|]. split; [exact I|].
    assert (U : forall i j r s, nth_error (regions st) i = Some r -> nth_error (regions st) j = Some s -> In p (snd r) -> In p (snd s) -> i = j).
    { intros. eapply (labelled_unique A g cells type st Hst); eassumption. }
    rewrite H4, (retag_region is_undefined (fst s1) i (retagged is_out Outside (ty, l)) p).
    + rewrite H2, (retag_region is_out (regions st) i (ty, l) p U E I).
      unfold retagged. destruct (is_out (ty, l)); reflexivity.
    + intros i0 j0 r0 s0 E1 E2 I1 I2. rewrite H1 in E1, E2.
      rewrite nth_error_map in E1. rewrite nth_error_map in E2.
      destruct (nth_error (regions st) i0) as [r1|] eqn:E3; [|discriminate].
      destruct (nth_error (regions st) j0) as [r2|] eqn:E4; [|discriminate].
      cbn [option_map] in E1, E2. inversion E1; subst r0. inversion E2; subst s0.
      eapply (U i0 j0 r1 r2); try assumption.
      * rewrite snd_retagged in I1. exact I1.
      * rewrite snd_retagged in I2. exact I2.
    + rewrite H1, nth_error_map, E. reflexivity.
    + rewrite snd_retagged. exact I.
Qed.

End Tagging.
