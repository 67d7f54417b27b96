(** Proofs about the neighbours in the fictitious grid, continued: geometry and exactness (C35). *)

From Coq Require Import ZArith Reals Lra Lia.
From Coq Require Import List Arith Bool.
From Verif Require Import GridModel GridSpec GridProofs GridGeoModel GridGeoSpec GridGeoProofs FictModel FictSpec FictProofs.
Import ListNotations.
Open Scope nat_scope.
Local Arguments Z.mul : simpl never.

Lemma facing_NoDup : forall (A : Type) D axis s (t : tree A) p, NoDup (facing D axis s p t).
Proof.
  intros A D axis s t. induction t as [a|childs IH] using tree_ind'; intros p; simpl.
  - repeat constructor. simpl. tauto.
  - rewrite Forall_forall in IH. apply NoDup_concat_rev_mapi; simpl.
    + intros i c E. destruct (Z.eqb _ _); [|constructor]. apply IH. eapply nth_error_In; eassumption.
    + intros i j c d x E1 E2 I1 I2.
      destruct (Z.eqb _ _) in I1; [|destruct I1]. destruct (Z.eqb _ _) in I2; [|destruct I2].
      apply facing_path in I1. apply facing_path in I2. destruct I1 as (w & ->). destruct I2 as (w' & I2).
      change (i :: p) with ([i] ++ p) in I2. change (j :: p) with ([j] ++ p) in I2. rewrite !app_assoc in I2.
      apply app_inv_tail in I2. apply app_inj_tail in I2. apply I2.
Qed.

(** * Integer coordinates of the top cells *)

Definition coord (g : grid) (top a : nat) : Z := nth a (cell_coordinates_of_index (subdivisions g) (Z.of_nat top)) 0%Z.

Lemma nth_subdivisions : forall g a, nth a (subdivisions g) 0%Z = ax_n (nth a g axis0).
Proof. intros. unfold subdivisions. change 0%Z with (ax_n axis0). apply map_nth. Qed.

Lemma Forall2_nth' : forall (A B : Type) (P : A -> B -> Prop) l m da db, Forall2 P l m -> forall i, i < length l -> P (nth i l da) (nth i m db).
Proof. intros A B P l m da db H. induction H; intros i Hi; simpl in *; [lia|]. destruct i; [assumption|apply IHForall2; lia]. Qed.

Lemma Forall2_length : forall (A B : Type) (P : A -> B -> Prop) l m, Forall2 P l m -> length l = length m.
Proof. intros A B P l m H. induction H; simpl; congruence. Qed.
Arguments Forall2_length {A B P l m}.

Lemma nth_Forall2 : forall (A B : Type) (P : A -> B -> Prop) da db l m, length l = length m ->
  (forall i, i < length l -> P (nth i l da) (nth i m db)) -> Forall2 P l m.
Proof.
  intros A B P da db. induction l as [|a l IH]; intros m Hl H; destruct m as [|b m]; try discriminate; constructor.
  - apply (H 0). simpl. lia.
  - apply IH; [simpl in Hl; lia|]. intros i Hi. apply (H (S i)). simpl. lia.
Qed.

Lemma nth_set_nth : forall (A : Type) (d x : A) l i j, i < length l -> nth j (set_nth i x l) d = if Nat.eqb j i then x else nth j l d.
Proof.
  intros A d x. unfold set_nth. induction l as [|a l IH]; intros i j Hi; simpl in Hi; [lia|].
  destruct i; destruct j; simpl; try reflexivity. apply IH. lia.
Qed.
Lemma length_set_nth : forall (A : Type) (x : A) l i, i < length l -> length (set_nth i x l) = length l.
Proof. intros. unfold set_nth. rewrite app_length, firstn_length_le by lia. cbn [length]. rewrite skipn_length. lia. Qed.

Open Scope R_scope.
Lemma IZR_pow2 : forall k, IZR (2 ^ Z.of_nat k) = 2 ^ k.
Proof. intros. rewrite <- (pow_IZR 2 k). reflexivity. Qed.

Lemma frac_lt : forall P k Q l, IZR P / 2 ^ k < IZR Q / 2 ^ l <-> (P * 2 ^ Z.of_nat l < Q * 2 ^ Z.of_nat k)%Z.
Proof.
  intros. assert (0 < 2 ^ k) by (apply pow_lt; lra). assert (0 < 2 ^ l) by (apply pow_lt; lra).
  assert (E : forall x y, IZR x / 2 ^ k < IZR y / 2 ^ l <-> IZR x * 2 ^ l < IZR y * 2 ^ k).
  { intros x y. split; intros I.
    - replace (IZR x * 2 ^ l) with (IZR x / 2 ^ k * (2 ^ k * 2 ^ l)) by (field; lra).
      replace (IZR y * 2 ^ k) with (IZR y / 2 ^ l * (2 ^ k * 2 ^ l)) by (field; lra).
      apply Rmult_lt_compat_r; [apply Rmult_lt_0_compat; assumption|exact I].
    - apply Rmult_lt_reg_r with (2 ^ k * 2 ^ l); [apply Rmult_lt_0_compat; assumption|].
      replace (IZR x / 2 ^ k * (2 ^ k * 2 ^ l)) with (IZR x * 2 ^ l) by (field; lra).
      replace (IZR y / 2 ^ l * (2 ^ k * 2 ^ l)) with (IZR y * 2 ^ k) by (field; lra). exact I. }
  rewrite E, <- !IZR_pow2, <- !mult_IZR. split; [apply lt_IZR|apply IZR_lt].
Qed.

Lemma frac_eq : forall P k Q l, IZR P / 2 ^ k = IZR Q / 2 ^ l <-> (P * 2 ^ Z.of_nat l = Q * 2 ^ Z.of_nat k)%Z.
Proof.
  intros. pose proof (frac_lt P k Q l) as A. pose proof (frac_lt Q l P k) as B. split; intros E.
  - assert (~ (P * 2 ^ Z.of_nat l < Q * 2 ^ Z.of_nat k)%Z) by (rewrite <- A; lra).
    assert (~ (Q * 2 ^ Z.of_nat k < P * 2 ^ Z.of_nat l)%Z) by (rewrite <- B; lra). lia.
  - assert (~ (IZR P / 2 ^ k < IZR Q / 2 ^ l)) by (rewrite A; lia).
    assert (~ (IZR Q / 2 ^ l < IZR P / 2 ^ k)) by (rewrite B; lia). lra.
Qed.

Lemma affine_lt : forall x h u v, 0 < h -> (x + h * u < x + h * v <-> u < v).
Proof. intros. split; intros; nra. Qed.
Lemma affine_eq : forall x h u v, 0 < h -> (x + h * u = x + h * v <-> u = v).
Proof. intros. split; intros; [|subst; reflexivity]. apply Rmult_eq_reg_l with h; lra. Qed.

Close Scope R_scope.

Section Grid.
Variable g : grid.
Hypothesis Hg : valid_grid g.
Let D := length g.
Let ns := subdivisions g.
Let N := Z.to_nat (number_of_cells ns).

Lemma coord_cell : forall top, top < N -> cell_of g (cell_coordinates_of_index ns (Z.of_nat top)) /\
  cell_index_at ns (cell_coordinates_of_index ns (Z.of_nat top)) = Z.of_nat top.
Proof.
  intros top H. destruct (flat_inverse g Hg) as [_ F]. apply F. unfold below. unfold N in H. unfold ns in *. lia.
Qed.

Lemma coord_range : forall top a, top < N -> a < D -> (0 <= coord g top a < ax_n (nth a g axis0))%Z.
Proof.
  intros top a Ht Ha. destruct (coord_cell top Ht) as [F _].
  unfold coord. exact (Forall2_nth' _ _ _ _ _ axis0 0%Z F a Ha).
Qed.

Lemma coord_inj : forall t t', t < N -> t' < N -> (forall a, a < D -> coord g t a = coord g t' a) -> t = t'.
Proof.
  intros t t' Ht Ht' H. destruct (coord_cell t Ht) as [F E]. destruct (coord_cell t' Ht') as [F' E'].
  assert (cell_coordinates_of_index ns (Z.of_nat t) = cell_coordinates_of_index ns (Z.of_nat t')).
  { apply nth_ext with 0%Z 0%Z.
    - rewrite <- (Forall2_length F), <- (Forall2_length F'). reflexivity.
    - intros a Ha. apply H. rewrite <- (Forall2_length F) in Ha. exact Ha. }
  apply Nat2Z.inj. rewrite <- E, <- E'. congruence.
Qed.

Lemma coord_move : forall top axis z, top < N -> axis < D -> (0 <= z < ax_n (nth axis g axis0))%Z ->
  let top' := Z.to_nat (cell_index_at ns (set_nth axis z (cell_coordinates_of_index ns (Z.of_nat top)))) in
  top' < N /\ forall a, a < D -> coord g top' a = if Nat.eqb a axis then z else coord g top a.
Proof.
  intros top axis z Ht Ha Hz top'. destruct (coord_cell top Ht) as [F E].
  pose proof (Forall2_length F) as L.
  set (c := cell_coordinates_of_index ns (Z.of_nat top)) in *.
  assert (C : cell_of g (set_nth axis z c)).
  { apply nth_Forall2 with axis0 0%Z; [rewrite length_set_nth; [assumption|rewrite <- L; assumption]|].
    intros i Hi. rewrite nth_set_nth by (rewrite <- L; assumption). destruct (Nat.eqb_spec i axis) as [->|]; [assumption|].
    exact (Forall2_nth' _ _ _ _ _ axis0 0%Z F i Hi). }
  destruct (flat_inverse g Hg) as [G _]. destruct (G _ C) as [G1 G2]. fold ns in G1, G2. unfold below in G1.
  assert (Hn : top' < N) by (unfold top', N; lia). split; [exact Hn|]. intros a Hlt.
  unfold coord, top'. rewrite Z2Nat.id by lia. fold ns. rewrite G2. rewrite nth_set_nth by (rewrite <- L; assumption). reflexivity.
Qed.

(** * Geometry *)

Hypothesis HD : D = 2 \/ D = 3.

Lemma nth_map3 : forall (A B C E : Type) (f : A -> B -> C -> E) l m n k da db dc de,
  k < length l -> length l = length m -> length l = length n -> nth k (map3 f l m n) de = f (nth k l da) (nth k m db) (nth k n dc).
Proof.
  intros A B C E f. induction l as [|a l IH]; intros m n k da db dc de Hk H1 H2; simpl in Hk; [lia|].
  destruct m as [|b m]; [discriminate|]. destruct n as [|c n]; [discriminate|]. destruct k; simpl; [reflexivity|].
  apply IH; simpl in *; lia.
Qed.
Lemma length_map3 : forall (A B C E : Type) (f : A -> B -> C -> E) l m n,
  length l = length m -> length l = length n -> length (map3 f l m n) = length l.
Proof.
  intros A B C E f. induction l as [|a l IH]; intros m n H1 H2; [reflexivity|].
  destruct m as [|b m]; [discriminate|]. destruct n as [|c n]; [discriminate|]. simpl. f_equal. apply IH; simpl in *; lia.
Qed.
Lemma nth_map2 : forall (A B C : Type) (f : A -> B -> C) l m k da db dc,
  k < length l -> length l = length m -> nth k (map2 f l m) dc = f (nth k l da) (nth k m db).
Proof.
  intros A B C f. induction l as [|a l IH]; intros m k da db dc Hk H1; simpl in Hk; [lia|].
  destruct m as [|b m]; [discriminate|]. destruct k; simpl; [reflexivity|]. apply IH; simpl in *; lia.
Qed.
Lemma length_map2 : forall (A B C : Type) (f : A -> B -> C) l m, length l = length m -> length (map2 f l m) = length l.
Proof.
  intros A B C f. induction l as [|a l IH]; intros m H1; [reflexivity|].
  destruct m as [|b m]; [discriminate|]. simpl. f_equal. apply IH; simpl in *; lia.
Qed.

Definition box_ok (e : box) : Prop := length (center e) = D /\ length (sides e) = D.

Open Scope R_scope.

Lemma subcell_center : forall i, (i < 2 ^ D)%nat ->
  length (nth i (subcell_centers D) []) = D /\
  forall a, (a < D)%nat -> nth a (nth i (subcell_centers D) []) 0 = IZR (bit D a i) - / 2.
Proof.
  intros i Hi. destruct HD as [E|E]; rewrite E in *; simpl in Hi.
  - apply below4 in Hi. repeat destruct Hi as [->|Hi]; try subst i; (split; [reflexivity|]);
    intros a Ha; apply below2 in Ha; repeat destruct Ha as [->|Ha]; try subst a; cbv [bit coordinates_of subcell_coordinates subcell_centers nth]; lra.
  - apply below8 in Hi. repeat destruct Hi as [->|Hi]; try subst i; (split; [reflexivity|]);
    intros a Ha; apply below3 in Ha; repeat destruct Ha as [->|Ha]; try subst a; cbv [bit coordinates_of subcell_coordinates subcell_centers nth]; lra.
Qed.

Lemma length_subcells : length (subcell_centers D) = (2 ^ D)%nat.
Proof. destruct HD as [E|E]; rewrite E; reflexivity. Qed.

Lemma subcell_ok : forall e i, box_ok e -> (i < 2 ^ D)%nat ->
  let f := nth i (get_subcells_elements D e) (unit_box D) in
  box_ok f /\ forall a, (a < D)%nat ->
    nth a (sides f) 0 = nth a (sides e) 0 / 2 /\ lower f a = lower e a + IZR (bit D a i) * (nth a (sides e) 0 / 2).
Proof.
  intros e i [Hc Hs] Hi f. destruct (subcell_center i Hi) as [Hl Hn].
  assert (Ef : f = Box (box_world e (nth i (subcell_centers D) [])) (map (fun h => h / 2) (sides e))).
  { unfold f, get_subcells_elements.
    set (F := fun xi => Box (box_world e xi) (map (fun h => h / 2) (sides e))).
    rewrite nth_indep with (d' := F []).
    - exact (map_nth F (subcell_centers D) [] i).
    - rewrite map_length, length_subcells. exact Hi. }
  rewrite Ef. split.
  - split; cbn [center sides]; [unfold box_world; rewrite length_map3; congruence|rewrite map_length; exact Hs].
  - intros a Ha. unfold lower. cbn [center sides]. 
    assert (S : nth a (map (fun h => h / 2) (sides e)) 0 = nth a (sides e) 0 / 2).
    { rewrite nth_indep with (d' := 0 / 2) by (rewrite map_length; lia). exact (map_nth (fun h => h / 2) (sides e) 0 a). }
    rewrite S. split; [reflexivity|].
    unfold box_world. rewrite nth_map3 with (da := 0) (db := 0) (dc := 0); [|lia|congruence|congruence].
    rewrite (Hn a Ha). lra.
Qed.

Lemma element_ok : forall p top, (top < N)%nat -> good D p ->
  let e := element g (top, p) in
  box_ok e /\ forall a, (a < D)%nat ->
    nth a (sides e) 0 = ax_H (nth a g axis0) / 2 ^ length p /\
    lower e a = ax_anchor (nth a g axis0) + ax_H (nth a g axis0) * (IZR (pos D a (coord g top a) p) / 2 ^ length p).
Proof.
  unfold element. cbn [fst snd]. fold D. fold ns.
  induction p as [|i p IH]; intros top Ht Hp; cbn [sub_box].
  - destruct (coord_cell top Ht) as [F _]. pose proof (Forall2_length F) as L. split.
    + split; cbn [cell_box center sides]; [apply length_map2; exact L|apply map_length].
    + intros a Ha. unfold lower. cbn [cell_box center sides length pow pos].
      assert (S : nth a (map ax_H g) 0 = ax_H (nth a g axis0)).
      { rewrite nth_indep with (d' := ax_H axis0) by (rewrite map_length; exact Ha). apply map_nth. }
      rewrite S. split; [field|].
      rewrite nth_map2 with (da := axis0) (db := 0%Z); [|exact Ha|exact L]. fold (coord g top a).
      unfold ax_cell_center. change (nth a (cell_coordinates_of_index ns (Z.of_nat top)) 0%Z) with (coord g top a). field.
  - inversion Hp as [|? ? Hi Hp']; subst. destruct (IH top Ht Hp') as [Ho He].
    destruct (subcell_ok _ i Ho Hi) as [Ho' He']. split; [exact Ho'|]. intros a Ha.
    destruct (He a Ha) as [E1 E2]. destruct (He' a Ha) as [E1' E2']. cbn [length pow pos].
    assert (2 ^ length p <> 0) by (apply pow_nonzero; lra).
    rewrite E1', E2', E1, E2. split; [field; assumption|].
    rewrite plus_IZR, mult_IZR. field. assumption.
Qed.

Lemma element_upper : forall p top, (top < N)%nat -> good D p -> forall a, (a < D)%nat ->
  upper (element g (top, p)) a = ax_anchor (nth a g axis0) + ax_H (nth a g axis0) * (IZR (pos D a (coord g top a) p + 1) / 2 ^ length p).
Proof.
  intros p top Ht Hp a Ha. destruct (element_ok p top Ht Hp) as [_ He]. destruct (He a Ha) as [E1 E2].
  assert (2 ^ length p <> 0) by (apply pow_nonzero; lra).
  unfold upper. unfold lower in E2. rewrite plus_IZR, E1. rewrite E1 in E2.
  set (c := nth a (center (element g (top, p))) 0) in *.
  replace c with (c - ax_H (nth a g axis0) / 2 ^ length p / 2 + ax_H (nth a g axis0) / 2 ^ length p / 2) by ring.
  rewrite E2. field. assumption.
Qed.

Lemma ax_H_pos : forall a, (a < D)%nat -> 0 < ax_H (nth a g axis0).
Proof. intros a Ha. apply H_pos. destruct Hg as [_ F]. rewrite Forall_forall in F. apply F. apply nth_In. exact Ha. Qed.

Definition touch (dir : Z) (P : Z) (k : nat) (Q : Z) (l : nat) : Prop :=
  (if dir <? 0 then P * 2 ^ Z.of_nat l = (Q + 1) * 2 ^ Z.of_nat k else (P + 1) * 2 ^ Z.of_nat l = Q * 2 ^ Z.of_nat k)%Z.

Definition at_ (p : ptr) (a : nat) : Z := pos D a (coord g (fst p) a) (snd p).
Definition okp (p : ptr) : Prop := (fst p < N)%nat /\ good D (snd p).

Lemma overlap_boxes : forall p q a, okp p -> okp q -> (a < D)%nat ->
  (lower (element g p) a < upper (element g q) a /\ lower (element g q) a < upper (element g p) a) <->
  overlap (at_ p a) (length (snd p)) (at_ q a) (length (snd q)).
Proof.
  intros [t p] [s q] a [Ht Hp] [Hs Hq] Ha. simpl in *. unfold at_. simpl.
  rewrite (element_upper _ _ Ht Hp a Ha), (element_upper _ _ Hs Hq a Ha).
  rewrite (proj2 (proj2 (element_ok _ _ Ht Hp) a Ha)), (proj2 (proj2 (element_ok _ _ Hs Hq) a Ha)).
  pose proof (ax_H_pos a Ha). rewrite !affine_lt, !frac_lt by assumption. reflexivity.
Qed.

Lemma touch_boxes : forall p q axis dir, okp p -> okp q -> (axis < D)%nat ->
  (if (dir <? 0)%Z then lower (element g p) axis = upper (element g q) axis else upper (element g p) axis = lower (element g q) axis) <->
  touch dir (at_ p axis) (length (snd p)) (at_ q axis) (length (snd q)).
Proof.
  intros [t p] [s q] a dir [Ht Hp] [Hs Hq] Ha. simpl in *. unfold at_, touch. simpl.
  rewrite (element_upper _ _ Ht Hp a Ha), (element_upper _ _ Hs Hq a Ha).
  rewrite (proj2 (proj2 (element_ok _ _ Ht Hp) a Ha)), (proj2 (proj2 (element_ok _ _ Hs Hq) a Ha)).
  pose proof (ax_H_pos a Ha). destruct (dir <? 0)%Z; rewrite affine_eq, frac_eq by assumption; reflexivity.
Qed.

Lemma at_range : forall p a, okp p -> (a < D)%nat -> (0 <= at_ p a < ax_n (nth a g axis0) * 2 ^ Z.of_nat (length (snd p)))%Z.
Proof.
  intros [top p] a [Ht Hp] Ha. simpl in Ht, Hp. pose proof (coord_range top a Ht Ha) as C.
  pose proof (pos_bounds D HD a (coord g top a) p Ha Hp) as B. unfold at_. cbn [fst snd].
  assert (Pw : (0 < 2 ^ Z.of_nat (length p))%Z) by (apply Z.pow_pos_nonneg; lia). nia.
Qed.

(** * The neighbours *)

Variable A : Type.
Variable cells : list (tree A).
Hypothesis Hcells : Z.of_nat (length cells) = number_of_cells ns.
Hypothesis Hfull : Forall (full D) cells.

Lemma length_cells : length cells = N.
Proof. unfold N. rewrite <- Hcells, Nat2Z.id. reflexivity. Qed.

Lemma cell_full : forall top t, nth_error cells top = Some t -> (top < N)%nat /\ full D t.
Proof.
  intros top t E. split.
  - rewrite <- length_cells. apply nth_error_Some. congruence.
  - rewrite Forall_forall in Hfull. apply Hfull. eapply nth_error_In; eassumption.
Qed.

Lemma leaf_okp : forall p a, leaf cells p a -> okp p.
Proof.
  intros [top p] a (t & E & S). simpl in *. destruct (cell_full _ _ E) as [Ht Hf].
  split; [exact Ht|]. eapply full_indices; eassumption.
Qed.

Variable axis : nat.
Hypothesis Haxis : (axis < D)%nat.
Variable dir : Z.
Hypothesis Hdir : (dir = 1 \/ dir = -1)%Z.

(** The search answers with the leaves at the place [(t', u')], one step further along the axis at the level of [p]. *)
Definition search_axis : Z := if (dir <? 0)%Z then 1%Z else 0%Z.

Lemma neighbors_target : forall p a, leaf cells p a ->
  (get_neighbors ns cells p axis dir = Some [] /\
   (at_ p axis + dir < 0 \/ ax_n (nth axis g axis0) * 2 ^ Z.of_nat (length (snd p)) <= at_ p axis + dir)%Z) \/
  (exists t' u' tr v w' s,
     okp (t', u') /\ length u' = length (snd p) /\
     (forall b, (b < D)%nat -> at_ (t', u') b = at_ p b + (if Nat.eqb b axis then dir else 0))%Z /\
     nth_error cells t' = Some tr /\ subtree tr v = Some s /\ u' = w' ++ v /\ (w' = [] \/ is_leaf s = true) /\
     get_neighbors ns cells p axis dir = Some (map (pair t') (facing D axis search_axis v s))).
Proof.
  intros [top p] a Hleaf. destruct (leaf_okp _ _ Hleaf) as [Ht Hp]. simpl in Ht, Hp.
  destruct Hleaf as (t0 & Et & Es). cbn [fst snd] in Et, Es. destruct (cell_full _ _ Et) as [_ Hf0].
  unfold get_neighbors. change (length ns) with (length (map ax_n g)). rewrite map_length. fold D.
  pose proof (go_up_spec D HD axis Haxis dir Hdir p [] Hp) as U.
  destruct (go_up D axis dir p []) as [up path]. destruct U as (w & u & -> & -> & U). rewrite app_nil_r.
  assert (Gw : good D w /\ good D u) by (unfold good in *; apply Forall_app in Hp; exact Hp). destruct Gw as [Gw Gu].
  assert (Gr : good D (rev w)) by (unfold good in *; apply Forall_rev; exact Gw).
  destruct up as [up|].
  - right. destruct U as (-> & w1 & i & -> & Hi & Hw1). rewrite Et.
    rewrite subtree_app in Es. destruct (subtree t0 up) as [su|] eqn:Esu; [|discriminate].
    assert (Hfu : full D su) by (eapply full_subtree; eassumption).
    destruct (go_down_spec D HD axis Haxis dir Hdir A (rev (w1 ++ [i])) up su Gr Hfu) as (w2 & s & E1 & E2 & E3).
    rewrite E1. exists top, (map (flip D axis) (w1 ++ [i]) ++ up), t0, (w2 ++ up).
    assert (exists w3, map (flip D axis) (w1 ++ [i]) = w3 ++ w2 /\ (w3 = [] \/ is_leaf s = true)) as (w3 & Ew3 & Hw3).
    { rewrite map_rev, rev_involutive in E3. destruct E3 as [-> | (L & w4 & ->)].
      - exists []. auto.
      - exists w4. auto. }
    exists w3, s. split; [|split; [|split; [|split; [|split; [|split; [|split]]]]]].
    + split; [exact Ht|]. cbn [snd]. apply Forall_app. split; [apply good_flip; assumption|assumption].
    + cbn [snd]. rewrite !app_length, map_length, app_length. reflexivity.
    + intros b Hb. unfold at_. cbn [fst snd]. rewrite !pos_app. destruct (Nat.eqb_spec b axis) as [->|Hn].
      * rewrite map_app. rewrite !pos_app. cbn [map pos].
        assert (Gi : (i < 2 ^ D)%nat) by (unfold good in Gw; apply Forall_app in Gw; destruct Gw as [_ Gi]; inversion Gi; assumption).
        destruct (flip_spec D HD axis i Haxis Gi) as (_ & Fi & _). rewrite Fi.
        rewrite <- pos_carry; try assumption.
        -- f_equal. lia.
        -- unfold good in Gw. apply Forall_app in Gw. apply Gw.
      * rewrite pos_flip_other by assumption. rewrite !pos_app. lia.
    + exact Et.
    + rewrite subtree_app, Esu. exact E2.
    + rewrite Ew3, app_assoc. reflexivity.
    + exact Hw3.
    + reflexivity.
  - destruct U as (-> & Hw). rewrite app_nil_r in *.
    change (nth axis (cell_coordinates_of_index ns (Z.of_nat top)) 0%Z) with (coord g top axis).
    pose proof (nth_subdivisions g axis) as En. fold ns in En. rewrite En.
    assert (Hc : at_ (top, w) axis = pos D axis (coord g top axis) w) by reflexivity.
    pose proof (pos_carry D HD axis Haxis dir Hdir (coord g top axis) w Gw Hw) as Carry.
    pose proof (pos_bounds D HD axis (coord g top axis + dir) (map (flip D axis) w) Haxis (good_flip D HD axis Haxis w Gw)) as B.
    rewrite Carry, map_length in B.
    assert (Pw : (0 < 2 ^ Z.of_nat (length w))%Z) by (apply Z.pow_pos_nonneg; lia).
    destruct (0 <=? coord g top axis + dir)%Z eqn:L1; [destruct (coord g top axis + dir <=? ax_n (nth axis g axis0) - 1)%Z eqn:L2|]; cbn [andb].
    + right. apply Z.leb_le in L1. apply Z.leb_le in L2.
      destruct (coord_move top axis (coord g top axis + dir) Ht Haxis ltac:(lia)) as [Ht' Hc']. fold ns in Ht', Hc'.
      set (top' := Z.to_nat (cell_index_at ns (set_nth axis (coord g top axis + dir)%Z (cell_coordinates_of_index ns (Z.of_nat top))))) in *.
      destruct (nth_error cells top') as [tr|] eqn:E'.
      2:{ apply nth_error_None in E'. rewrite length_cells in E'. lia. }
      destruct (cell_full _ _ E') as [_ Hf'].
      destruct (go_down_spec D HD axis Haxis dir Hdir A (rev w) [] tr Gr Hf') as (w2 & s & E1 & E2 & E3).
      rewrite E1. rewrite map_rev, rev_involutive in E3. rewrite app_nil_r.
      assert (exists w3, map (flip D axis) w = w3 ++ w2 /\ (w3 = [] \/ is_leaf s = true)) as (w3 & Ew3 & Hw3).
      { destruct E3 as [-> | (L & w4 & ->)]; [exists []; auto|exists w4; auto]. }
      exists top', (map (flip D axis) w), tr, w2, w3, s.
      split; [|split; [|split; [|split; [|split; [|split; [|split]]]]]]; try assumption; try reflexivity.
      * split; [exact Ht'|]. cbn [snd]. apply good_flip; assumption.
      * cbn [snd]. apply map_length.
      * intros b Hb. unfold at_. cbn [fst snd]. rewrite (Hc' b Hb). destruct (Nat.eqb_spec b axis) as [->|Hn].
        -- exact Carry.
        -- rewrite pos_flip_other by assumption. lia.
    + left. split; [reflexivity|]. right. apply Z.leb_le in L1. apply Z.leb_gt in L2. rewrite Hc. cbn [snd].
      assert (ax_n (nth axis g axis0) <= coord g top axis + dir)%Z by lia. nia.
    + left. split; [reflexivity|]. left. apply Z.leb_gt in L1. rewrite Hc. nia.
Qed.

(** Leaves that overlap are the same. *)
Lemma leaves_disjoint : forall p q a b, leaf cells p a -> leaf cells q b ->
  (forall x, (x < D)%nat -> overlap (at_ p x) (length (snd p)) (at_ q x) (length (snd q))) -> p = q.
Proof.
  assert (W : forall p q a b, leaf cells p a -> leaf cells q b -> (length (snd p) <= length (snd q))%nat ->
    (forall x, (x < D)%nat -> overlap (at_ p x) (length (snd p)) (at_ q x) (length (snd q))) -> p = q).
  { intros [t u] [t' v] a b L1 L2 Hl H. destruct (leaf_okp _ _ L1) as [O1 O2]. destruct (leaf_okp _ _ L2) as [O3 O4].
    cbn [fst snd] in *. destruct (nested D HD u v (coord g t) (coord g t') O2 O4 Hl H) as [(w & ->) E].
    apply coord_inj in E; try assumption. subst t'.
    destruct L1 as (s & E1 & E2). destruct L2 as (s' & E3 & E4). cbn [fst snd] in *. rewrite E1 in E3. inversion E3; subst s'.
    rewrite subtree_app, E2 in E4. apply subtree_leaf in E4 as [-> _]. reflexivity. }
  intros p q a b L1 L2 H. destruct (Nat.le_ge_cases (length (snd p)) (length (snd q))) as [C|C].
  - eapply W; eassumption.
  - symmetry. eapply W; try eassumption. intros x Hx. apply overlap_sym, H, Hx.
Qed.

Lemma touch_overlap : forall P k Q l, touch dir P k Q l -> overlap (P + dir) k Q l.
Proof.
  intros P k Q l H. unfold touch in H. unfold overlap.
  assert (Pk : (0 < 2 ^ Z.of_nat k)%Z) by (apply Z.pow_pos_nonneg; lia).
  assert (Pl : (0 < 2 ^ Z.of_nat l)%Z) by (apply Z.pow_pos_nonneg; lia).
  destruct Hdir as [Hd|Hd]; rewrite Hd in *; cbn [Z.ltb Z.compare] in H; lia.
Qed.

(** A sub-cell [w ++ u'] of the target touches [p] when its bits along the axis face [p]. *)
Lemma touch_below : forall P T w c u', good D w -> (P + dir = T)%Z -> (pos D axis c u' = T)%Z ->
  (touch dir P (length u') (pos D axis c (w ++ u')) (length (w ++ u')) <-> Forall (fun i => bit D axis i = search_axis) w).
Proof.
  intros P T w c u' Gw HT Hu. rewrite pos_app, Hu, app_length. unfold touch, search_axis.
  rewrite Nat2Z.inj_add, Z.pow_add_r by lia.
  assert (Pu : (0 < 2 ^ Z.of_nat (length u'))%Z) by (apply Z.pow_pos_nonneg; lia).
  destruct Hdir as [Hd|Hd]; rewrite Hd in *; cbn [Z.ltb Z.compare].
  - rewrite <- (pos_zeros D HD axis T w Haxis Gw). split; intros H.
    + apply Z.mul_reg_r with (2 ^ Z.of_nat (length u'))%Z; lia.
    + rewrite H. replace P with (T - 1)%Z by lia. ring.
  - rewrite <- (pos_ones D HD axis T w Haxis Gw). split; intros H.
    + apply Z.mul_reg_r with (2 ^ Z.of_nat (length u'))%Z; lia.
    + rewrite H. replace P with (T + 1)%Z by lia. ring.
Qed.

Theorem neighbors_exact : forall p a, leaf cells p a ->
  exists l, get_neighbors ns cells p axis dir = Some l /\ NoDup l /\
    forall q, In q l <-> a_leaf cells q /\ face_to_face D axis dir (element g p) (element g q).
Proof.
  intros p a Lp. pose proof (leaf_okp _ _ Lp) as Op.
  destruct (neighbors_target p a Lp) as [(E & Hout)|(t' & u' & tr & v & w' & s & Ot & Hl & Hat & Etr & Es & Hu & Hs & E)].
  - exists []. split; [exact E|]. split; [constructor|]. intros q. split; [intros []|].
    intros [(b & Lq) [F _]]. pose proof (leaf_okp _ _ Lq) as Oq.
    apply touch_boxes in F; try assumption. pose proof (at_range q axis Oq Haxis) as R.
    assert (Pk : (0 < 2 ^ Z.of_nat (length (snd p)))%Z) by (apply Z.pow_pos_nonneg; lia).
    assert (Pl : (0 < 2 ^ Z.of_nat (length (snd q)))%Z) by (apply Z.pow_pos_nonneg; lia).
    pose proof (touch_overlap _ _ _ _ F) as [O1 O2].
    set (X := (2 ^ Z.of_nat (length (snd p)))%Z) in *. set (Y := (2 ^ Z.of_nat (length (snd q)))%Z) in *.
    set (P := (at_ p axis + dir)%Z) in *. set (Q := at_ q axis) in *. set (n := ax_n (nth axis g axis0)) in *.
    destruct Hout as [Ho|Ho]; nia.
  - exists (map (pair t') (facing D axis search_axis v s)). split; [exact E|]. split.
    { apply FinFun.Injective_map_NoDup; [|apply facing_NoDup]. intros x y H. inversion H. reflexivity. }
    pose proof (Hat axis Haxis) as Hx. rewrite Nat.eqb_refl in Hx.
    assert (Hoth : forall b, (b < D)%nat -> b <> axis -> at_ (t', u') b = at_ p b).
    { intros b Hb Hn. rewrite (Hat b Hb). destruct (Nat.eqb_spec b axis); [contradiction|lia]. }
    destruct (cell_full _ _ Etr) as [_ Hftr].
    assert (Gv : good D v) by (eapply full_indices; eassumption).
    intros q. rewrite in_map_iff. split.
    + intros (x & <- & Hin). apply in_facing in Hin. destruct Hin as (w & b & -> & Hw & Hbits).
      assert (Lq : leaf cells (t', w ++ v) b).
      { exists tr. cbn [fst snd]. split; [exact Etr|]. rewrite subtree_app, Es. exact Hw. }
      pose proof (leaf_okp _ _ Lq) as Oq. pose proof Oq as [_ Gwv]. cbn [snd] in Gwv. unfold good in Gwv.
      apply Forall_app in Gwv as [Gw _].
      split; [exists b; exact Lq|].
      destruct Hs as [-> | Hs].
      * cbn [app] in Hu. subst v. split.
        -- apply touch_boxes; try assumption. cbn [snd]. rewrite <- Hl.
           apply (touch_below (at_ p axis) (at_ (t', u') axis)); try assumption; try reflexivity. symmetry; exact Hx.
        -- intros b' Hb' Hn. apply overlap_boxes; try assumption. rewrite <- (Hoth b' Hb' Hn), <- Hl. cbn [snd].
           apply nested_overlap; assumption.
      * destruct s as [b0|]; [|discriminate]. apply subtree_leaf in Hw as [-> Hb]. cbn [app] in *.
        assert (Gw' : good D w') by (destruct Ot as [_ Gu']; cbn [snd] in Gu'; rewrite Hu in Gu'; unfold good in Gu'; apply Forall_app in Gu'; apply Gu').
        assert (Ov : forall b', (b' < D)%nat -> overlap (at_ (t', u') b') (length u') (at_ (t', v) b') (length v)).
        { intros b' Hb'. apply overlap_sym. rewrite Hu. apply nested_overlap; assumption. }
        split.
        -- apply touch_boxes; try assumption. cbn [snd]. rewrite <- Hl.
           pose proof (Ov axis Haxis) as [O1 O2].
           assert (Ll : (length v <= length u')%nat) by (rewrite Hu, app_length; lia).
           pose proof (pow_split _ _ Ll) as Pw.
           assert (Pv : (0 < 2 ^ Z.of_nat (length v))%Z) by (apply Z.pow_pos_nonneg; lia).
           assert (Pd : (0 < 2 ^ Z.of_nat (length u' - length v))%Z) by (apply Z.pow_pos_nonneg; lia).
           (* otherwise p would be inside of q *)
           assert (Notin : ~ overlap (at_ p axis) (length u') (at_ (t', v) axis) (length v)).
           { intros O3. assert (p = (t', v)) as ->.
             { apply (leaves_disjoint p (t', v) a b Lp Lq). intros x Hx'. cbn [snd]. rewrite <- Hl.
               destruct (Nat.eq_dec x axis) as [->|Hn]; [exact O3|]. rewrite <- (Hoth x Hx' Hn). apply Ov, Hx'. }
             cbn [snd] in Hl. assert (w' = []) by (rewrite Hu, app_length in Hl; destruct w'; [reflexivity|simpl in Hl; lia]).
             subst w'. cbn [app] in Hu. subst u'. lia. }
           unfold overlap in Notin. unfold touch.
           set (P := at_ p axis) in *. set (Q := at_ (t', v) axis) in *. set (V := (2 ^ Z.of_nat (length v))%Z) in *.
           set (U := (2 ^ Z.of_nat (length u' - length v))%Z) in *. rewrite Pw in *. rewrite Hx in O1, O2.
           assert (Notin' : ~ (P < (Q + 1) * U /\ Q * U < P + 1)%Z).
           { intros [N1 N2]. apply Notin. split; nia. }
           assert (I1 : (P + dir < (Q + 1) * U)%Z) by nia.
           assert (I2 : (Q * U < P + dir + 1)%Z) by nia.
           destruct Hdir as [Hd|Hd]; rewrite Hd in *; cbn [Z.ltb Z.compare].
           ++ assert (P + 1 = Q * U)%Z by lia. nia.
           ++ assert (P = (Q + 1) * U)%Z by lia. nia.
        -- intros b' Hb' Hn. apply overlap_boxes; try assumption. rewrite <- (Hoth b' Hb' Hn), <- Hl. apply Ov, Hb'.
    + intros [(b & Lq) [F1 F2]]. pose proof (leaf_okp _ _ Lq) as Oq.
      apply touch_boxes in F1; try assumption. rewrite <- Hl in F1.
      assert (Ov : forall x, (x < D)%nat -> overlap (at_ (t', u') x) (length u') (at_ q x) (length (snd q))).
      { intros x Hx'. destruct (Nat.eq_dec x axis) as [->|Hn].
        - rewrite Hx. apply touch_overlap. exact F1.
        - rewrite (Hoth x Hx' Hn), Hl. apply overlap_boxes; auto. }
      destruct q as [tq vq]. destruct Ot as [Ot1 Ot2]. destruct Oq as [Oq1 Oq2]. cbn [fst snd] in *.
      assert (Same : tq = t' /\ ((exists w, vq = w ++ u') \/ (exists w, u' = w ++ vq))).
      { destruct (Nat.le_ge_cases (length u') (length vq)) as [C|C].
        - destruct (nested D HD u' vq (coord g t') (coord g tq) Ot2 Oq2 C Ov) as [N1 N2].
          apply coord_inj in N2; try assumption. auto.
        - destruct (nested D HD vq u' (coord g tq) (coord g t') Oq2 Ot2 C) as [N1 N2].
          { intros x Hx'. apply overlap_sym, Ov, Hx'. }
          apply coord_inj in N2; try assumption. auto. }
      destruct Same as [-> Same]. exists vq. split; [reflexivity|].
      destruct Lq as (tr' & E1 & E2). cbn [fst snd] in *. rewrite Etr in E1. inversion E1; subst tr'. clear E1.
      apply in_facing. destruct Same as [(w & ->)|(w & Hw)].
      * assert (w' = []) as ->.
        { destruct Hs as [Hs|Hs]; [exact Hs|]. destruct s as [b0|]; [|discriminate].
          rewrite Hu, app_assoc, subtree_app, Es in E2. apply subtree_leaf in E2 as [E2 _].
          apply app_eq_nil in E2. apply E2. }
        cbn [app] in Hu. subst v. exists w, b. split; [reflexivity|]. rewrite subtree_app, Es in E2. split; [exact E2|].
        unfold good in Oq2. apply Forall_app in Oq2 as [Gw _].
        eapply (touch_below (at_ p axis) (at_ (t', u') axis)) with (c := coord g t' axis) (u' := u'); try assumption; try reflexivity.
        symmetry; exact Hx.
      * destruct (Nat.le_ge_cases (length v) (length vq)) as [C|C].
        -- assert (exists z, vq = z ++ v) as (z & ->).
           { rewrite Hu in Hw. exists (skipn (length w) w').
             assert (Q : skipn (length w) (w' ++ v) = vq).
             { rewrite Hw. rewrite skipn_app, skipn_all, Nat.sub_diag. reflexivity. }
             rewrite <- Q, skipn_app. replace (length w - length w')%nat with 0%nat; [reflexivity|].
             assert (length (w' ++ v) = length (w ++ vq)) by (rewrite Hw; reflexivity). rewrite !app_length in H. lia. }
           rewrite subtree_app, Es in E2.
           exists z, b. split; [reflexivity|]. split; [exact E2|].
           assert (z = []) as ->; [|constructor].
           destruct Hs as [-> | Hs].
           ++ cbn [app] in Hu. subst v. assert (length u' = length (w ++ z ++ u')) by (rewrite Hw at 1; reflexivity).
              rewrite !app_length in H. destruct z; [reflexivity|simpl in H; lia].
           ++ destruct s as [b0|]; [|discriminate]. apply subtree_leaf in E2. apply E2.
        -- assert (exists z, v = z ++ vq) as (z & Hz).
           { rewrite Hu in Hw. exists (skipn (length w') w).
             assert (Q : skipn (length w') (w ++ vq) = v).
             { rewrite <- Hw. rewrite skipn_app, skipn_all, Nat.sub_diag. reflexivity. }
             rewrite <- Q, skipn_app. replace (length w' - length w)%nat with 0%nat; [reflexivity|].
             assert (length (w' ++ v) = length (w ++ vq)) by (rewrite Hw; reflexivity). rewrite !app_length in H. lia. }
           rewrite Hz, subtree_app, E2 in Es. apply subtree_leaf in Es as [-> ->]. cbn [app] in Hz. subst vq.
           exists [], b. split; [reflexivity|]. split; [reflexivity|constructor].
Qed.

End Grid.
