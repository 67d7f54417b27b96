(** Quadrature points and the sub-cells they represent. *)

From Coq Require Import ZArith Reals Lra Lia Permutation.
From Coq Require Import List Arith Bool.
From Verif Require Import GridModel GridSpec GridProofs GridGeoModel GridGeoSpec GridGeoProofs ShapeModel Sums FictModel FictSpec FictProofs FictProofs2
  FictProofs3 FictProofs4 FictProofs5 FictProofs6.
Import ListNotations.
Open Scope R_scope.

Lemma nth_map3_0 : forall (f : R -> R -> R -> R) l m n k, (k < length l)%nat -> length l = length m -> length l = length n ->
  nth k (map3 f l m n) 0 = f (nth k l 0) (nth k m 0) (nth k n 0).
Proof.
  intros f. induction l as [|a l IH]; intros m n k Hk H1 H2; simpl in Hk; [lia|].
  destruct m as [|b m]; [discriminate|]. destruct n as [|c n]; [discriminate|]. destruct k; simpl; [reflexivity|].
  apply IH; simpl in *; lia.
Qed.

Lemma nth_repeat_lt : forall (A : Type) (x : A) n k d, (k < n)%nat -> nth k (repeat x n) d = x.
Proof. intros A x. induction n as [|n IH]; intros k d H; [lia|]. destruct k; simpl; [reflexivity|]. apply IH. lia. Qed.

Section Gauss.
Variable D : nat.
Hypothesis HD : (D = 2 \/ D = 3)%nat.
Variable type : list nat -> cell_type.
Variable level : nat.

Let g0 : grid := repeat axis0 D.
Lemma g0_length : length g0 = D. Proof. apply repeat_length. Qed.
Definition wf (e : box) : Prop := length (center e) = D /\ length (sides e) = D /\ forall a, (a < D)%nat -> 0 < nth a (sides e) 0.

Lemma subcell_wf : forall e i, wf e -> (i < 2 ^ D)%nat ->
  let f := nth i (get_subcells_elements D e) (unit_box D) in
  wf f /\ forall a, (a < D)%nat ->
    nth a (sides f) 0 = nth a (sides e) 0 / 2 /\ lower f a = lower e a + IZR (bit D a i) * (nth a (sides e) 0 / 2).
Proof.
  intros e i (H1 & H2 & H3) Hi f. pose proof (subcell_ok g0) as S. rewrite g0_length in S. specialize (S HD e i).
  unfold box_ok in S. rewrite g0_length in S.
  specialize (S (conj H1 H2) Hi). destruct S as [[S1 S2] S3]. split.
  - split; [exact S1|]. split; [exact S2|]. intros a Ha. destruct (S3 a Ha) as [E _]. fold f in E. rewrite E. specialize (H3 a Ha). lra.
  - exact S3.
Qed.

Lemma unit_wf : wf (unit_box D).
Proof.
  split; [apply repeat_length|]. split; [apply repeat_length|]. intros a Ha. cbn [unit_box sides].
  rewrite nth_repeat_lt by exact Ha. lra.
Qed.

Lemma sub_wf : forall p, good D p -> wf (sub_box D (unit_box D) p).
Proof.
  induction p as [|i p IH]; intros H; [exact unit_wf|]. inversion H; subst. simpl. apply subcell_wf; auto.
Qed.

(** The local coordinates of the quadrature points *)
Definition local (xi : list R) : Prop := length xi = D /\ forall a, (a < D)%nat -> -1 < nth a xi 0 < 1.

Lemma third : 0 < 1 / sqrt 3 < 1.
Proof.
  assert (1 < sqrt 3) by (rewrite <- sqrt_1; apply sqrt_lt_1; lra). split.
  - apply Rdiv_lt_0_compat; lra.
  - apply Rmult_lt_reg_r with (sqrt 3); [lra|]. unfold Rdiv. rewrite Rmult_assoc, Rinv_l by lra. lra.
Qed.
Lemma minus_third : -1 / sqrt 3 = - (1 / sqrt 3).
Proof. unfold Rdiv. ring. Qed.

Lemma gauss_local : forall gn, In gn (gauss_nodes D) -> local (fst gn) /\ snd gn = 1.
Proof.
  pose proof third as T. intros gn H. destruct HD as [E|E]; unfold local; rewrite E in *; simpl in H; repeat destruct H as [<-|H]; try contradiction;
    cbn [fst snd]; (split; [|reflexivity]); (split; [reflexivity|]); intros a Ha;
    first [apply below2 in Ha; destruct Ha as [->| ->] | apply below3 in Ha; destruct Ha as [->|[->| ->]]]; cbn [nth]; rewrite ?minus_third; lra.
Qed.

Lemma world_inside : forall e xi, wf e -> local xi -> inside_box D e (box_world e xi).
Proof.
  intros e xi (H1 & H2 & H3) [L B] a Ha. unfold lower, upper, box_world.
  rewrite nth_map3_0; [|lia|congruence|congruence].
  specialize (H3 a Ha). specialize (B a Ha). set (h := nth a (sides e) 0) in *. nra.
Qed.

Lemma world_unit : forall xi, length xi = D -> box_world (unit_box D) xi = xi.
Proof.
  intros xi L. unfold box_world, unit_box. cbn [center sides]. clear HD g0. revert xi L. induction D as [|d IH]; intros xi L.
  - destruct xi; [reflexivity|discriminate].
  - destruct xi as [|x xi]; [discriminate|]. simpl. f_equal; [lra|]. apply IH. simpl in L. lia.
Qed.

(** The representation below a sub-cell *)
Notation kept := (get_cell_weight type).
Definition rep (p0 : list nat) (t : tree R) (l : list (list R * R)) (owners : list (list nat)) : Prop :=
  length owners = length l /\
  (forall k p x, nth_error owners k = Some p -> nth_error l k = Some x -> inside_box D (sub_box D (unit_box D) p) (fst x)) /\
  (forall p, In p owners -> exists v s, p = v ++ p0 /\ subtree t v = Some s /\ fine_enough level p s /\ owned owners l p = 2 ^ D * kept p s) /\
  (forall v a, subtree t v = Some (Leaf a) ->
     exists q, (In q owners /\ exists u, v ++ p0 = u ++ q) /\ forall q', In q' owners /\ (exists u, v ++ p0 = u ++ q') -> q' = q).

Lemma rep_top : forall t l owners, rep [] t l owners -> represents D level kept t l owners.
Proof.
  intros t l owners (H1 & H2 & H3 & H4). split; [exact H1|]. split; [exact H2|]. split.
  - intros p I. destruct (H3 p I) as (v & s & -> & E & F & W). rewrite app_nil_r in *. exists s. auto.
  - intros p a E. specialize (H4 p a E). rewrite app_nil_r in H4. exact H4.
Qed.

Lemma owned_all : forall n p (l : list (list R * R)), length l = n -> owned (repeat p n) l p = Rsum (map snd l).
Proof.
  intros n p l <-. unfold owned, total, Rsum. induction l as [|x l IH]; simpl; [reflexivity|].
  destruct (list_eq_dec Nat.eq_dec p p) as [_|C]; [|contradiction]. rewrite IH. reflexivity.
Qed.

Lemma repeat_nth_error : forall (A : Type) (x : A) n k y, nth_error (repeat x n) k = Some y -> y = x.
Proof. intros A x n k y H. apply nth_error_In in H. apply repeat_spec in H. exact H. Qed.

Lemma rep_leaf : forall p0 w, good D p0 -> (length p0 <= level)%nat ->
  rep p0 (Leaf w) (map (fun gn => (box_world (sub_box D (unit_box D) p0) (fst gn), if retained (type p0) then snd gn * w else 0)) (gauss_nodes D))
    (repeat p0 (2 ^ D)).
Proof.
  intros p0 w G Hlev. pose proof (gauss_length D HD) as GL. split; [rewrite repeat_length, map_length; auto|]. split; [|split].
  - intros k p x Hp Hx. apply repeat_nth_error in Hp. subst p. apply nth_error_In in Hx. apply in_map_iff in Hx.
    destruct Hx as (gn & <- & I). cbn [fst]. apply world_inside; [apply sub_wf; exact G|apply gauss_local; exact I].
  - intros p Hp. apply repeat_spec in Hp. subst p. exists [], (Leaf w). split; [reflexivity|]. split; [reflexivity|].
    split; [left; auto|].
    rewrite owned_all by (rewrite map_length; exact GL). rewrite map_map. cbn [snd get_cell_weight].
    destruct (retained (type p0)).
    + rewrite (Rsum_ext _ _ (fun _ => w)); [|intros gn I; rewrite (proj2 (gauss_local gn I)); lra].
      destruct HD as [E|E]; rewrite E; simpl; lra.
    + rewrite Rsum_zero by reflexivity. lra.
  - intros v a H. apply subtree_leaf in H as [-> _]. exists p0. split.
    + split; [|exists []; reflexivity]. destruct HD as [E|E]; rewrite E; simpl; auto.
    + intros q' [H _]. apply repeat_spec in H. exact H.
Qed.

Lemma combine_concat : forall (A B : Type) (la : list (list A)) (lb : list (list B)),
  Forall2 (fun a b => length a = length b) la lb -> combine (concat la) (concat lb) = concat (map (fun ab => combine (fst ab) (snd ab)) (combine la lb)).
Proof.
  intros A B la lb H. induction H as [|a b la lb E H IH]; [reflexivity|]. simpl. rewrite <- IH. clear -E.
  revert b E. induction a as [|x a IH]; intros b E; destruct b as [|y b]; try discriminate; [reflexivity|]. simpl. f_equal. apply IH. simpl in E. lia.
Qed.

Lemma nth_error_concat_blocks : forall (A B : Type) (la : list (list A)) (lb : list (list B)) k x y,
  Forall2 (fun a b => length a = length b) la lb -> nth_error (concat la) k = Some x -> nth_error (concat lb) k = Some y ->
  exists i j a b, nth_error la i = Some a /\ nth_error lb i = Some b /\ nth_error a j = Some x /\ nth_error b j = Some y.
Proof.
  intros A B la lb k x y H. revert k. induction H as [|a b la lb E H IH]; intros k Hx Hy; [destruct k; discriminate|].
  simpl in Hx, Hy. destruct (Nat.lt_ge_cases k (length a)) as [C|C].
  - rewrite nth_error_app1 in Hx by exact C. rewrite nth_error_app1 in Hy by lia. exists 0%nat, k, a, b. auto.
  - rewrite nth_error_app2 in Hx by exact C. rewrite nth_error_app2 in Hy by lia. rewrite <- E in Hy.
    destruct (IH _ Hx Hy) as (i & j & a' & b' & H'). exists (S i), j, a', b'. exact H'.
Qed.

Lemma Forall2_mapi : forall (A B C : Type) (P : B -> C -> Prop) (f : nat -> A -> B) (h : nat -> A -> C) l k,
  (forall i a, nth_error l i = Some a -> P (f (k + i)%nat a) (h (k + i)%nat a)) -> Forall2 P (mapi f k l) (mapi h k l).
Proof.
  induction l as [|a l IH]; intros k H; simpl; constructor.
  - specialize (H 0%nat a eq_refl). rewrite Nat.add_0_r in H. exact H.
  - apply IH. intros i b E. specialize (H (S i) b E). rewrite Nat.add_succ_r in H. exact H.
Qed.

Lemma combine_mapi : forall (A B C : Type) (f : nat -> A -> B) (h : nat -> A -> C) l k,
  combine (mapi f k l) (mapi h k l) = mapi (fun i a => (f i a, h i a)) k l.
Proof. induction l as [|a l IH]; intros k; simpl; [reflexivity|]. rewrite IH. reflexivity. Qed.

Lemma Rsum_mapi_single : forall (A : Type) (f : nat -> A -> R) l k i a, nth_error l i = Some a ->
  (forall j b, nth_error l j = Some b -> j <> i -> f (k + j)%nat b = 0) -> Rsum (mapi f k l) = f (k + i)%nat a.
Proof.
  intros A f. induction l as [|b l IH]; intros k i a E H; [destruct i; discriminate|]. destruct i as [|i]; simpl in E; cbn [mapi Rsum fold_right].
  - inversion E; subst. rewrite Nat.add_0_r.
    assert (Z : fold_right Rplus 0 (mapi f (S k) l) = 0).
    { assert (Hz : forall j b, nth_error l j = Some b -> f (S k + j)%nat b = 0).
      { intros j b Ej. specialize (H (S j) b Ej). rewrite Nat.add_succ_r in H. apply H. lia. }
      clear -Hz. revert k Hz. induction l as [|b l IH]; intros k Hz; simpl; [reflexivity|].
      pose proof (Hz 0%nat b eq_refl) as Z. rewrite Nat.add_0_r in Z. rewrite Z, IH; [lra|]. intros j c Ej. specialize (Hz (S j) c Ej). rewrite Nat.add_succ_r in Hz. exact Hz. }
    rewrite Z. lra.
  - pose proof (H 0%nat b eq_refl ltac:(lia)) as Z. rewrite Nat.add_0_r in Z. rewrite Z.
    change (fold_right Rplus 0 (mapi f (S k) l)) with (Rsum (mapi f (S k) l)).
    rewrite (IH (S k) i a E); [rewrite Nat.add_succ_r; simpl; lra|].
    intros j c Ej Hj. specialize (H (S j) c Ej). rewrite Nat.add_succ_r in H. apply H. lia.
Qed.

Lemma app_tail : forall (A : Type) (v u : list A) i j p, v ++ i :: p = u ++ j :: p -> v = u /\ i = j.
Proof.
  intros A v u i j p H. replace (v ++ i :: p) with ((v ++ [i]) ++ p) in H by (rewrite <- app_assoc; reflexivity).
  replace (u ++ j :: p) with ((u ++ [j]) ++ p) in H by (rewrite <- app_assoc; reflexivity).
  apply app_inv_tail in H. apply app_inj_tail in H. exact H.
Qed.

Lemma rep_node : forall p0 childs (L : nat -> tree R -> list (list R * R)) O,
  (forall i c, nth_error childs i = Some c -> rep (i :: p0) c (L i c) (O i c)) ->
  rep p0 (Node childs) (concat (mapi L 0 childs)) (concat (mapi O 0 childs)).
Proof.
  intros p0 childs L O H.
  assert (F : Forall2 (fun a b => length a = length b) (mapi O 0 childs) (mapi L 0 childs)).
  { apply Forall2_mapi. intros i c E. destruct (H i c E) as [H1 _]. exact H1. }
  assert (Low : forall i c q, nth_error childs i = Some c -> In q (O i c) -> exists v, q = v ++ i :: p0).
  { intros i c q E I. destruct (H i c E) as (_ & _ & H3 & _). destruct (H3 q I) as (v & s & Q & _). exists v. exact Q. }
  split; [|split; [|split]].
  - clear -F. induction F as [|a b la lb E F IH]; [reflexivity|]. simpl. rewrite !app_length, E, IH. reflexivity.
  - intros k p x Hp Hx. destruct (nth_error_concat_blocks _ _ _ _ k p x F Hp Hx) as (i & j & a & b & Ea & Eb & Ep & Ex).
    rewrite nth_error_mapi in Ea, Eb. destruct (nth_error childs i) as [c|] eqn:Ec; [|discriminate]. inversion Ea; subst a. inversion Eb; subst b.
    destruct (H i c Ec) as (_ & H2 & _). exact (H2 j p x Ep Ex).
  - intros p I. apply in_concat in I. destruct I as (b & Hb & I). apply in_mapi in Hb. destruct Hb as (i & c & Ec & ->). cbn [Nat.add] in I.
    destruct (H i c Ec) as (HL & _ & H3 & _). destruct (H3 p I) as (v & s & Ep & Es & Fe & W).
    exists (v ++ [i]), s. split; [rewrite <- app_assoc; exact Ep|]. split; [rewrite subtree_last, Ec; exact Es|]. split; [exact Fe|].
    rewrite <- W. unfold owned, total. rewrite combine_concat by exact F. rewrite combine_mapi, concat_map, !map_mapi.
    change (fold_right Rplus 0) with Rsum. rewrite Rsum_concat, map_mapi. cbn [fst snd].
    rewrite (Rsum_mapi_single _ _ childs 0 i c Ec); [reflexivity|].
    intros j d Ed Hj. cbn [Nat.add]. apply Rsum_zero. intros [o x] Io. cbn [fst snd].
    destruct (list_eq_dec Nat.eq_dec o p) as [->|]; [|reflexivity]. exfalso. apply in_combine_l in Io.
    destruct (Low j d p Ed Io) as (v' & Ep'). rewrite Ep in Ep'. apply app_tail in Ep'. destruct Ep' as [_ ->]. apply Hj. reflexivity.
  - intros v a Es. destruct v as [|i v _] using rev_ind; [discriminate|]. rewrite subtree_last in Es.
    destruct (nth_error childs i) as [c|] eqn:Ec; [|discriminate]. destruct (H i c Ec) as (_ & _ & _ & H4).
    destruct (H4 v a Es) as (q & (Iq & u & Eu) & U). rewrite <- app_assoc. cbn [app]. exists q. split.
    + split; [|exists u; exact Eu]. apply in_concat. exists (O i c). split; [|exact Iq]. apply in_mapi. exists i, c. auto.
    + intros q' [Iq' (u' & Eu')]. apply U. split; [|exists u'; exact Eu'].
      apply in_concat in Iq'. destruct Iq' as (b & Hb & Iq'). apply in_mapi in Hb. destruct Hb as (j & d & Ed & ->). cbn [Nat.add] in Iq'.
      destruct (Low j d q' Ed Iq') as (v' & ->). rewrite app_assoc in Eu'. apply app_tail in Eu'. destruct Eu' as [_ ->]. congruence.
Qed.
End Gauss.

(** One point for each of the eight children *)
Lemma rep_truncated : forall type p0 childs, good 3 p0 -> length childs = 8%nat ->
  rep 3 type (length p0) p0 (Node childs)
    (mapi (fun i gn => (box_world (sub_box 3 (unit_box 3) p0) (fst gn),
       snd gn * (INR (length (gauss_nodes 3)) * get_cell_weight type (i :: p0) (nth i childs (Leaf 0))))) 0 (gauss_nodes 3))
    (map (fun i => i :: p0) (seq 0 8)).
Proof.
  intros type p0 childs G Hl. assert (HD : (3 = 2 \/ 3 = 3)%nat) by auto.
  assert (In8 : forall i, (i < 8)%nat -> exists c, nth_error childs i = Some c).
  { intros i Hi. destruct (nth_error childs i) as [c|] eqn:E; [eauto|]. apply nth_error_None in E. lia. }
  split; [reflexivity|]. split; [|split].
  - intros k p x Hp Hx. rewrite nth_error_mapi in Hx. destruct (nth_error (gauss_nodes 3) k) as [gn|] eqn:Eg; [|discriminate].
    inversion Hx; subst x. cbn [fst Nat.add].
    assert (Hk : (k < 8)%nat) by (change 8%nat with (length (gauss_nodes 3)); apply nth_error_Some; congruence).
    rewrite nth_error_map in Hp. rewrite (nth_error_nth' _ 0%nat) in Hp by (rewrite seq_length; exact Hk). rewrite seq_nth in Hp by exact Hk. inversion Hp; subst p.
    cbn [sub_box Nat.add]. pose proof (sub_wf 3 HD p0 G) as W. destruct (subcell_wf 3 HD _ k W Hk) as [_ S].
    destruct W as (W1 & W2 & W3). set (e := sub_box 3 (unit_box 3) p0) in *.
    intros a Ha. destruct (S a Ha) as [S1 S2]. unfold upper. assert (U : forall f, nth a (center f) 0 + nth a (sides f) 0 / 2 = lower f a + nth a (sides f) 0) by (intros; unfold lower; lra).
    rewrite U, S1, S2. specialize (W3 a Ha). unfold lower, box_world.
    destruct (gauss_local 3 HD gn (nth_error_In _ _ Eg)) as [[Lg _] _].
    rewrite nth_map3_0; [|lia|congruence|congruence].
    set (h := nth a (sides e) 0) in *. set (c := nth a (center e) 0). pose proof third as T.
    assert (B : nth a (fst gn) 0 = (2 * IZR (bit 3 a k) - 1) * (1 / sqrt 3)).
    { apply below8 in Hk. apply below3 in Ha. clear -Eg Hk Ha.
      repeat destruct Hk as [->|Hk]; try subst k; cbn in Eg; inversion Eg; subst gn; cbn [fst];
      destruct Ha as [->|[->| ->]]; cbv [bit coordinates_of subcell_coordinates nth]; rewrite ?minus_third; lra. }
    rewrite B. destruct (bit_range 3 HD a k Ha Hk) as [-> | ->]; nra.
  - intros p Hp. apply in_map_iff in Hp. destruct Hp as (i & <- & Hi). apply in_seq in Hi. destruct (In8 i ltac:(lia)) as (c & Ec).
    exists [i], c. split; [reflexivity|]. split; [exact Ec|]. split; [right; reflexivity|].
    assert (En : nth i childs (Leaf 0) = c) by (apply nth_error_nth; exact Ec).
    rewrite <- En. set (W := fun j => get_cell_weight type (j :: p0) (nth j childs (Leaf 0))).
    change (get_cell_weight type (i :: p0) (nth i childs (Leaf 0))) with (W i).
    unfold owned, total. cbn [gauss_nodes RectangularHexahedron_Linear_gauss mapi seq map combine fst snd length].
    fold (W 0%nat) (W 1%nat) (W 2%nat) (W 3%nat) (W 4%nat) (W 5%nat) (W 6%nat) (W 7%nat).
    assert (Q : forall j k (x y : R), (if list_eq_dec Nat.eq_dec (j :: p0) (k :: p0) then x else y) = if Nat.eqb j k then x else y).
    { intros j k x y. destruct (list_eq_dec Nat.eq_dec (j :: p0) (k :: p0)) as [E|E]; destruct (Nat.eqb_spec j k) as [E'|E']; try reflexivity; exfalso; congruence. }
    assert (Hi' : (i < 8)%nat) by lia. clear -Q Hi'. apply below8 in Hi'.
    repeat destruct Hi' as [->|Hi']; try subst i; rewrite !Q; cbn [Nat.eqb fold_right INR]; simpl; lra.
  - intros v a Es. destruct v as [|i v _] using rev_ind; [discriminate|]. rewrite subtree_last in Es.
    destruct (nth_error childs i) as [c|] eqn:Ec; [|discriminate].
    assert (Hi : (i < 8)%nat) by (rewrite <- Hl; apply nth_error_Some; congruence).
    exists (i :: p0). rewrite <- app_assoc. cbn [app]. split.
    + split; [|exists v; reflexivity]. apply in_map_iff. exists i. split; [reflexivity|]. apply in_seq. lia.
    + intros q' [I (u & Eu)]. apply in_map_iff in I. destruct I as (j & <- & _). apply app_tail in Eu. destruct Eu as [_ ->]. reflexivity.
Qed.

(** Where the points really are *)
Definition contained (D : nat) (e : box) : Prop := forall a, (a < D)%nat -> -1 <= lower e a /\ upper e a <= 1.

Lemma upper_lower : forall e a, upper e a = lower e a + nth a (sides e) 0.
Proof. intros. unfold upper, lower. lra. Qed.

Lemma subcell_contained : forall D e i, (D = 2 \/ D = 3)%nat -> wf D e -> (i < 2 ^ D)%nat -> contained D e ->
  contained D (nth i (get_subcells_elements D e) (unit_box D)).
Proof.
  intros D e i HD W Hi C a Ha. destruct (subcell_wf D HD e i W Hi) as [_ S]. destruct (S a Ha) as [S1 S2].
  destruct (C a Ha) as [C1 C2]. rewrite upper_lower in C2. rewrite upper_lower, S1, S2. destruct W as (_ & _ & W3). specialize (W3 a Ha).
  destruct (bit_range D HD a i Ha Hi) as [-> | ->]; lra.
Qed.

Lemma length_world : forall D e xi, wf D e -> length xi = D -> length (box_world e xi) = D.
Proof.
  intros D [c s] xi (H1 & H2 & _) L. unfold box_world. cbn [center sides] in *. rewrite <- H1. assert (E1 : length s = length c) by congruence.
  assert (E2 : length xi = length c) by congruence. clear -E1 E2. revert s xi E1 E2.
  induction c as [|x c IH]; intros s xi E1 E2; [reflexivity|]. destruct s as [|y s]; [discriminate|]. destruct xi as [|z xi]; [discriminate|].
  simpl. f_equal. apply IH; simpl in *; lia.
Qed.

Lemma world_local : forall D e xi, (D = 2 \/ D = 3)%nat -> wf D e -> contained D e -> local D xi -> local D (box_world e xi).
Proof.
  intros D e xi HD W C L. split; [apply length_world; [exact W|apply L]|]. intros a Ha.
  destruct (world_inside D HD e xi W L a Ha) as [B1 B2]. destruct (C a Ha). lra.
Qed.

Lemma points_local : forall D type, (D = 2 \/ D = 3)%nat -> forall t levels e p x, full D t -> wf D e -> contained D e ->
  In x (get_gauss_cells D type levels e p t) -> local D (fst x).
Proof.
  intros D type HD t. induction t as [w|childs IH] using tree_ind'; intros levels e p x Hf W C I.
  - cbn [get_gauss_cells] in I. apply in_map_iff in I. destruct I as (gn & <- & I). apply (gauss_local D HD gn I).
  - inversion Hf as [|? Hlen Hc]; subst. destruct levels as [|levels]; cbn [get_gauss_cells] in I.
    + apply in_mapi in I. destruct I as (i & gn & E & ->). apply (gauss_local D HD gn (nth_error_In _ _ E)).
    + apply in_concat in I. destruct I as (b & Hb & I). apply in_mapi in Hb. destruct Hb as (i & c & Ec & ->). cbn [Nat.add] in I.
      apply in_map_iff in I. destruct I as (y & <- & I). cbn [fst].
      assert (Hi : (i < 2 ^ D)%nat) by (rewrite <- Hlen; apply nth_error_Some; congruence).
      rewrite Forall_forall in IH, Hc. pose proof (nth_error_In _ _ Ec) as In_c.
      destruct (subcell_wf D HD e i W Hi) as [W' _]. pose proof (subcell_contained D e i HD W Hi C) as C'.
      apply world_local; [exact HD|exact W'|exact C'|]. eapply IH; eauto.
Qed.

Lemma unit_lower : forall D a, (a < D)%nat -> lower (unit_box D) a = -1 /\ nth a (sides (unit_box D)) 0 = 2.
Proof.
  intros D a Ha. unfold lower, unit_box. cbn [center sides]. rewrite !nth_repeat_lt by exact Ha. lra.
Qed.
Lemma unit_contained : forall D, contained D (unit_box D).
Proof. intros D a Ha. destruct (unit_lower D a Ha) as [E1 E2]. rewrite upper_lower, E1, E2. lra. Qed.

Lemma deep_points : forall D type childs level x, (D = 2 \/ D = 3)%nat -> full D (Node childs) ->
  (forall i c, nth_error childs i = Some c -> is_leaf c = false) -> (2 <= level)%nat ->
  In x (get_gauss_cells D type level (unit_box D) [] (Node childs)) -> forall a, (a < D)%nat -> / 2 < Rabs (nth a (fst x) 0).
Proof.
  intros D type childs level x HD Hf Hn Hl I a Ha. destruct level as [|[|level]]; [lia|lia|].
  inversion Hf as [|? Hlen Hc]; subst. cbn [get_gauss_cells] in I.
  apply in_concat in I. destruct I as (b & Hb & I). apply in_mapi in Hb. destruct Hb as (i & c & Ec & ->). cbn [Nat.add] in I.
  apply in_map_iff in I. destruct I as (y & <- & I). cbn [fst].
  assert (Hi : (i < 2 ^ D)%nat) by (rewrite <- Hlen; apply nth_error_Some; congruence).
  rewrite Forall_forall in Hc. pose proof (Hc _ (nth_error_In _ _ Ec)) as Fc. specialize (Hn i c Ec).
  destruct c as [w|cs]; [discriminate|]. cbn [get_gauss_cells] in I. inversion Fc as [|? Hlen' Hc']; subst.
  apply in_concat in I. destruct I as (b & Hb & I). apply in_mapi in Hb. destruct Hb as (j & c & Ej & ->). cbn [Nat.add] in I.
  apply in_map_iff in I. destruct I as (z & <- & I). cbn [fst].
  assert (Hj : (j < 2 ^ D)%nat) by (rewrite <- Hlen'; apply nth_error_Some; congruence).
  set (e1 := nth i (get_subcells_elements D (unit_box D)) (unit_box D)) in *.
  set (e2 := nth j (get_subcells_elements D e1) (unit_box D)) in *.
  pose proof (unit_wf D) as W0. destruct (subcell_wf D HD _ i W0 Hi) as [W1 S1]. fold e1 in W1, S1. destruct (subcell_wf D HD _ j W1 Hj) as [W2 S2]. fold e2 in W2, S2.
  pose proof (subcell_contained D _ i HD W0 Hi (unit_contained D)) as C1. fold e1 in C1.
  pose proof (subcell_contained D _ j HD W1 Hj C1) as C2. fold e2 in C2.
  rewrite Forall_forall in Hc'. pose proof (points_local D type HD c level e2 [j; i] z (Hc' _ (nth_error_In _ _ Ej)) W2 C2 I) as Lz.
  destruct (world_inside D HD e2 (fst z) W2 Lz a Ha) as [B1 B2]. rewrite upper_lower in B2.
  pose proof (length_world D e2 (fst z) W2 (proj1 Lz)) as Ly. set (y := box_world e2 (fst z)) in *.
  destruct (unit_lower D a Ha) as [U1 U2]. destruct (S1 a Ha) as [S11 S12]. destruct (S2 a Ha) as [S21 S22].
  rewrite U1, U2 in *. rewrite S11, S12 in *.
  assert (E : nth a (box_world e1 y) 0 = nth a (center e1) 0 + nth a y 0 * (nth a (sides e1) 0 / 2)).
  { unfold box_world. destruct W1 as (? & ? & _). apply nth_map3_0; congruence. }
  rewrite E. unfold lower in S12. rewrite S11 in *.
  destruct (bit_range D HD a i Ha Hi) as [Bi|Bi]; rewrite Bi in *; destruct (bit_range D HD a j Ha Hj) as [Bj|Bj]; rewrite Bj in *;
    first [rewrite Rabs_left by lra; lra | rewrite Rabs_right by lra; lra].
Qed.
