(** Proofs about the geometry of regular grids (C06-C09). *)

From Coq Require Import ZArith List Reals Lia Lra Psatz FinFun.
From Flocq Require Import Core.Raux Core.Generic_fmt Core.Round_NE.
From Verif Require Import GridModel GridSpec GridProofs GridGeoModel GridGeoSpec.
Import ListNotations.
Open Scope R_scope.

(** * Flat cell index on lists *)

Lemma flat_inverse : forall g, valid_grid g ->
  mutually_inverse (cell_of g) (below (number_of_cells (subdivisions g)))
    (cell_index_at (subdivisions g)) (cell_coordinates_of_index (subdivisions g)).
Proof.
  intros g [Hl Hv].
  destruct g as [|a [|b [|c [|d g]]]]; simpl in Hl; try lia.
  - inversion Hv as [|? ? [Ha _] _]; subst. split.
    + intros co Hc. inversion Hc as [|? i ? co' Hi Hc']; subst. inversion Hc'; subst.
      simpl. unfold below, cell_index_at1, cell_coordinates_at1. split; [lia|reflexivity].
    + intros z Hz. simpl in *. unfold below, cell_index_at1, cell_coordinates_at1 in *.
      split; [|reflexivity]. repeat constructor; lia.
  - inversion Hv as [|? ? [Ha _] Hv']; subst. inversion Hv' as [|? ? [Hb _] _]; subst.
    destruct (cells2_inverse (ax_n a) (ax_n b) Ha Hb) as [F G]. split.
    + intros co Hc. inversion Hc as [|? i ? co' Hi Hc']; subst.
      inversion Hc' as [|? j ? co'' Hj Hc'']; subst. inversion Hc''; subst.
      destruct (F (i, j)) as [F1 F2]; [split; assumption|].
      cbn [subdivisions map cell_index_at cell_coordinates_of_index].
      rewrite F2. split; [|reflexivity].
      unfold below, number_of_cells2 in *. simpl. rewrite Z.mul_1_r. exact F1.
    + intros z Hz. simpl in Hz. rewrite Z.mul_1_r in Hz. destruct (G z Hz) as [G1 G2].
      cbn [subdivisions map cell_index_at cell_coordinates_of_index].
      destruct (cell_coordinates_at2 (ax_n a) z) as [i j]. destruct G1 as [G1 G1'].
      split; [|exact G2]. repeat constructor; unfold below in *; lia.
  - inversion Hv as [|? ? [Ha _] Hv']; subst. inversion Hv' as [|? ? [Hb _] Hv'']; subst.
    inversion Hv'' as [|? ? [Hc0 _] _]; subst.
    destruct (cells3_inverse (ax_n a) (ax_n b) (ax_n c) Ha Hb Hc0) as [F G]. split.
    + intros co Hc. inversion Hc as [|? i ? co' Hi Hc']; subst.
      inversion Hc' as [|? j ? co'' Hj Hc'']; subst.
      inversion Hc'' as [|? k ? co3 Hk Hc3]; subst. inversion Hc3; subst.
      destruct (F (i, j, k)) as [F1 F2]; [repeat split; unfold below in *; lia|].
      cbn [subdivisions map cell_index_at cell_coordinates_of_index].
      rewrite F2. split; [|reflexivity].
      unfold below, number_of_cells3 in *. simpl. rewrite Z.mul_1_r, Z.mul_assoc. exact F1.
    + intros z Hz. simpl in Hz. rewrite Z.mul_1_r, Z.mul_assoc in Hz. destruct (G z Hz) as [G1 G2].
      cbn [subdivisions map cell_index_at cell_coordinates_of_index].
      destruct (cell_coordinates_at3 (ax_n a) (ax_n b) z) as [[i j] k]. destruct G1 as [G1 [G1' G1'']].
      split; [|exact G2]. repeat constructor; unfold below in *; lia.
Qed.

(** * One axis *)

Lemma n_pos : forall a, valid_axis a -> 0 < IZR (ax_n a).
Proof. intros a [H _]. apply IZR_lt; assumption. Qed.

Lemma H_pos : forall a, valid_axis a -> 0 < ax_H a.
Proof.
  intros a H. unfold ax_H. apply Rdiv_lt_0_compat; [apply H|apply n_pos; assumption].
Qed.

Lemma plane_H : forall a i, valid_axis a -> plane a i = ax_anchor a + IZR i * ax_H a.
Proof. intros a i H. unfold plane, ax_H. pose proof (n_pos a H). field. lra. Qed.

Lemma absolute_eq : forall a x, valid_axis a -> x = ax_anchor a + ax_absolute a x * ax_H a.
Proof. intros a x H. unfold ax_absolute. pose proof (H_pos a H). field. lra. Qed.

Lemma size_H : forall a, valid_axis a -> ax_size a = IZR (ax_n a) * ax_H a.
Proof. intros a H. unfold ax_H. pose proof (n_pos a H). field. lra. Qed.

Lemma plane_le : forall a i x, valid_axis a -> plane a i <= x <-> IZR i <= ax_absolute a x.
Proof.
  intros a i x H. rewrite plane_H by assumption. rewrite (absolute_eq a x H) at 1.
  pose proof (H_pos a H). split; intro; nra.
Qed.
Lemma plane_ge : forall a i x, valid_axis a -> x <= plane a i <-> ax_absolute a x <= IZR i.
Proof.
  intros a i x H. rewrite plane_H by assumption. rewrite (absolute_eq a x H) at 1.
  pose proof (H_pos a H). split; intro; nra.
Qed.
Lemma plane_lt : forall a i x, valid_axis a -> plane a i < x <-> IZR i < ax_absolute a x.
Proof.
  intros a i x H. rewrite plane_H by assumption. rewrite (absolute_eq a x H) at 1.
  pose proof (H_pos a H). split; intro; nra.
Qed.
Lemma plane_gt : forall a i x, valid_axis a -> x < plane a i <-> ax_absolute a x < IZR i.
Proof.
  intros a i x H. rewrite plane_H by assumption. rewrite (absolute_eq a x H) at 1.
  pose proof (H_pos a H). split; intro; nra.
Qed.

Lemma plane_0 : forall a, valid_axis a -> plane a 0 = ax_anchor a.
Proof. intros a H. rewrite plane_H by assumption. ring. Qed.
Lemma plane_n : forall a, valid_axis a -> plane a (ax_n a) = ax_anchor a + ax_size a.
Proof. intros a H. rewrite plane_H by assumption. rewrite (size_H a H). ring. Qed.

Lemma in_grid_absolute : forall a x, valid_axis a ->
  ax_anchor a <= x <= ax_anchor a + ax_size a <-> 0 <= ax_absolute a x <= IZR (ax_n a).
Proof.
  intros a x H. rewrite <- plane_n by assumption. rewrite <- (plane_0 a H) at 1.
  rewrite plane_le, plane_ge by assumption. reflexivity.
Qed.
Lemma in_grid_ho_absolute : forall a x, valid_axis a ->
  ax_anchor a <= x < ax_anchor a + ax_size a <-> 0 <= ax_absolute a x < IZR (ax_n a).
Proof.
  intros a x H. rewrite <- plane_n by assumption. rewrite <- (plane_0 a H) at 1.
  rewrite plane_le, plane_gt by assumption. reflexivity.
Qed.

Lemma enlarged_absolute : forall eps a i x, valid_axis a ->
  (plane a i - eps * (ax_size a / IZR (ax_n a)) < x < plane a (i + 1) + eps * (ax_size a / IZR (ax_n a)))
  <-> IZR i - eps < ax_absolute a x < IZR i + 1 + eps.
Proof.
  intros eps a i x H. rewrite !plane_H by assumption. change (ax_size a / IZR (ax_n a)) with (ax_H a).
  rewrite (absolute_eq a x H) at 1 2. rewrite plus_IZR.
  pose proof (H_pos a H). split; intros [A B]; split; nra.
Qed.

Lemma EPSILON_pos : 0 < EPSILON.
Proof. unfold EPSILON. apply Rinv_0_lt_compat. apply IZR_lt. reflexivity. Qed.
Lemma EPSILON_small : EPSILON < / 4.
Proof.
  unfold EPSILON. apply Rinv_lt_contravar.
  - apply Rmult_lt_0_compat; apply IZR_lt; reflexivity.
  - apply IZR_lt. reflexivity.
Qed.

Lemma sqr_lt : forall d, d * d < EPSILON * EPSILON <-> - EPSILON < d < EPSILON.
Proof. intros d. pose proof EPSILON_pos. split; intros; [split|]; nra. Qed.

Lemma IZR_lt_1 : forall i j, IZR i < IZR j + 1 -> (i <= j)%Z.
Proof. intros i j H. rewrite <- plus_IZR in H. apply lt_IZR in H. lia. Qed.

Lemma floor_minus_half : forall z, Zfloor (IZR z - / 2) = (z - 1)%Z.
Proof. intros. apply Zfloor_imp. rewrite plus_IZR, minus_IZR. lra. Qed.
Lemma floor_plus_half : forall z, Zfloor (IZR z + / 2) = z.
Proof. intros. apply Zfloor_imp. rewrite plus_IZR. lra. Qed.

Lemma close_spec : forall a x,
  ax_close a x = true <-> exists r, Rabs (ax_absolute a x - IZR r) < EPSILON /\ ZnearestA (ax_absolute a x) = r.
Proof.
  intros a x. unfold ax_close, ax_rounded. destruct (Rlt_dec _ _) as [H|H].
  - split; [intros _|reflexivity]. exists (ZnearestA (ax_absolute a x)). split; [|reflexivity].
    apply sqr_lt in H. apply Rabs_def1; lra.
  - split; [discriminate|]. intros (r & A & B). subst r. exfalso. apply H. apply sqr_lt.
    apply Rabs_def2 in A. lra.
Qed.

Lemma not_close_far : forall a x r, ax_close a x = false -> EPSILON <= Rabs (ax_absolute a x - IZR r).
Proof.
  intros a x r H. destruct (Rlt_le_dec (Rabs (ax_absolute a x - IZR r)) EPSILON) as [L|L]; [|assumption].
  assert (ax_close a x = true); [|congruence].
  apply close_spec. exists r. split; [assumption|].
  apply Znearest_imp. pose proof EPSILON_small. lra.
Qed.

Definition axis_near (a : axis) (t : R) (i : Z) : Prop :=
  (0 <= i < ax_n a)%Z /\ IZR i - EPSILON < t < IZR i + 1 + EPSILON.

Lemma axis_indices_spec : forall a x i,
  0 <= ax_absolute a x <= IZR (ax_n a) ->
  (In i (axis_indices a x) <-> axis_near a (ax_absolute a x) i).
Proof.
  intros a x i Ht. pose proof EPSILON_pos as E0. pose proof EPSILON_small as E1.
  unfold axis_indices, axis_near. destruct (ax_close a x) eqn:C.
  - unfold ax_rounded. apply close_spec in C. destruct C as (r & Hr & E). rewrite E.
    rewrite floor_minus_half, floor_plus_half. apply Rabs_def2 in Hr.
    set (t := ax_absolute a x) in *.
    assert (0 <= r)%Z by (apply IZR_lt_1; simpl; lra).
    assert (r <= ax_n a)%Z by (apply IZR_lt_1; lra).
    rewrite in_app_iff. split.
    + intros [Hi|Hi].
      * destruct (0 <=? r - 1)%Z eqn:B; simpl in Hi; [|contradiction].
        destruct Hi as [Hi|[]]. subst i. apply Z.leb_le in B. split; [lia|]. rewrite minus_IZR. lra.
      * destruct (r <=? ax_n a - 1)%Z eqn:B; simpl in Hi; [|contradiction].
        destruct Hi as [Hi|[]]. subst i. apply Z.leb_le in B. split; [lia|]. lra.
    + intros [Hi [Hl Hu]].
      assert (i <= r)%Z by (apply IZR_lt_1; lra).
      assert (r <= i + 1)%Z by (apply IZR_lt_1; rewrite plus_IZR; lra).
      destruct (Z.eq_dec r i) as [->|N].
      * right. replace (i <=? ax_n a - 1)%Z with true by (symmetry; apply Z.leb_le; lia). left; reflexivity.
      * left. replace (0 <=? r - 1)%Z with true by (symmetry; apply Z.leb_le; lia). left; lia.
  - pose proof (not_close_far a x) as F. specialize (fun r => F r C).
    set (t := ax_absolute a x) in *.
    pose proof (Zfloor_lb t) as L. pose proof (Zfloor_ub t) as U.
    assert (0 <= Zfloor t)%Z by (apply IZR_lt_1; lra).
    assert (Zfloor t < ax_n a)%Z.
    { assert (Zfloor t <= ax_n a)%Z by (apply IZR_lt_1; lra).
      destruct (Z.eq_dec (Zfloor t) (ax_n a)) as [E|E]; [|lia].
      exfalso. specialize (F (ax_n a)). rewrite E in L.
      replace (t - IZR (ax_n a)) with 0 in F by lra. rewrite Rabs_R0 in F. lra. }
    replace ((0 <=? Zfloor t) && (Zfloor t <=? ax_n a - 1))%Z%bool with true.
    2:{ symmetry. apply andb_true_intro. split; apply Z.leb_le; lia. }
    split.
    + intros [Hi|[]]. subst i. split; [lia|]. lra.
    + intros [Hi [Hl Hu]]. left.
      pose proof (F i) as Fi. pose proof (F (i + 1)%Z) as Fi1. rewrite plus_IZR in Fi1.
      apply Zfloor_imp. rewrite plus_IZR. split.
      * destruct (Rle_lt_dec (IZR i) t); [assumption|]. rewrite Rabs_left in Fi by lra. lra.
      * destruct (Rlt_le_dec t (IZR i + 1)); [assumption|]. rewrite Rabs_right in Fi1 by lra. lra.
Qed.

Lemma axis_indices_nodup : forall a x, NoDup (axis_indices a x).
Proof.
  intros a x. unfold axis_indices. destruct (ax_close a x).
  - unfold ax_rounded. rewrite floor_minus_half, floor_plus_half.
    set (r := ZnearestA (ax_absolute a x)).
    destruct (0 <=? r - 1)%Z; destruct (r <=? ax_n a - 1)%Z; simpl; repeat constructor; simpl; intuition lia.
  - destruct (_ && _)%bool; repeat constructor; simpl; tauto.
Qed.

(** A closed cell is near. *)
Lemma closed_near : forall a x i, valid_axis a -> (0 <= i < ax_n a)%Z ->
  plane a i <= x <= plane a (i + 1) -> axis_near a (ax_absolute a x) i.
Proof.
  intros a x i Ha Hi [Hl Hu]. split; [assumption|]. pose proof EPSILON_pos.
  apply plane_le in Hl; [|assumption]. apply plane_ge in Hu; [|assumption].
  rewrite plus_IZR in Hu. lra.
Qed.

(** * list_product *)

Lemma in_list_product : forall ls c, In c (list_product ls) <-> Forall2 (fun l i => In i l) ls c.
Proof.
  induction ls as [|l ls IH]; intros c; simpl.
  - split; [intros [<-|[]]; constructor | intros H; inversion H; left; reflexivity].
  - rewrite in_flat_map. split.
    + intros (i & Hi & Hc). apply in_map_iff in Hc. destruct Hc as (c' & <- & Hc').
      constructor; [assumption|]. apply IH; assumption.
    + intros H. inversion H as [|? i ? c' Hi Hc']; subst. exists i. split; [assumption|].
      apply in_map. apply IH; assumption.
Qed.

Lemma NoDup_app_disj : forall (A : Type) (l m : list A),
  NoDup l -> NoDup m -> (forall a, In a l -> In a m -> False) -> NoDup (l ++ m).
Proof.
  induction l as [|a l IH]; simpl; intros m Hl Hm D; [assumption|].
  inversion Hl; subst. constructor.
  - rewrite in_app_iff. intros [?|?]; [contradiction|]. apply (D a); auto.
  - apply IH; auto. intros b ? ?. apply (D b); auto.
Qed.

Lemma NoDup_list_product : forall ls, Forall (@NoDup Z) ls -> NoDup (list_product ls).
Proof.
  induction ls as [|l ls IH]; intros H; simpl.
  - repeat constructor. simpl; tauto.
  - inversion H as [|? ? Hl Hls]; subst. specialize (IH Hls). clear H.
    induction l as [|i l IHl]; simpl; [constructor|].
    inversion Hl; subst. apply NoDup_app_disj.
    + apply FinFun.Injective_map_NoDup; [|assumption]. intros u v E. injection E; auto.
    + apply IHl; assumption.
    + intros c Hc Hc'. apply in_map_iff in Hc. destruct Hc as (c1 & <- & _).
      apply in_flat_map in Hc'. destruct Hc' as (j & Hj & Hm). apply in_map_iff in Hm.
      destruct Hm as (c2 & E & _). injection E; intros; subst. contradiction.
Qed.

(** * cells_around *)

Definition near_cell (g : grid) (c : list Z) (p : list R) : Prop :=
  axiswise (fun a i x => axis_near a (ax_absolute a x) i) g c p.

Lemma product_near : forall g p, Forall valid_axis g -> in_grid g p ->
  forall c, In c (list_product (map2 axis_indices g p)) <-> near_cell g c p.
Proof.
  intros g p Hv Hp c. rewrite in_list_product. revert c Hv. induction Hp as [|a x g p Hx Hp IH]; intros c Hv; simpl.
  - split; intros H; inversion H; constructor.
  - inversion Hv as [|? ? Ha Hv']; subst.
    apply in_grid_absolute in Hx; [|assumption].
    split; intros H; inversion H as [|? ? ? ? ? ? Hi Hc]; subst; constructor.
    + apply axis_indices_spec; assumption.
    + apply IH; assumption.
    + apply axis_indices_spec; assumption.
    + apply IH; assumption.
Qed.

Lemma near_cell_of : forall g c p, near_cell g c p -> cell_of g c.
Proof. induction 1 as [|a g i c x p [Hi _] _ IH]; constructor; assumption. Qed.

Lemma not_close_axis_indices : forall a x, valid_axis a -> ax_anchor a <= x <= ax_anchor a + ax_size a ->
  ax_close a x = false ->
  axis_indices a x = [Zfloor (ax_absolute a x)] /\ (0 <= Zfloor (ax_absolute a x) < ax_n a)%Z.
Proof.
  intros a x Ha Hx C. apply in_grid_absolute in Hx; [|assumption].
  assert (H : In (Zfloor (ax_absolute a x)) (axis_indices a x)).
  { apply axis_indices_spec; [assumption|]. pose proof EPSILON_pos.
    set (t := ax_absolute a x) in *.
    pose proof (Zfloor_lb t) as L. pose proof (Zfloor_ub t) as U. split; [|lra].
    assert (Zfloor t <= ax_n a)%Z by (apply IZR_lt_1; lra). split.
    - apply IZR_lt_1; lra.
    - destruct (Z.eq_dec (Zfloor t) (ax_n a)) as [E|E]; [|lia].
      exfalso. pose proof (not_close_far a x (ax_n a) C) as F. fold t in F. rewrite E in L.
      replace (t - IZR (ax_n a)) with 0 in F by lra. rewrite Rabs_R0 in F. lra. }
  pose proof H as H'. apply axis_indices_spec in H'; [|assumption]. split; [|apply H'].
  unfold axis_indices in *. rewrite C in *. destruct (_ && _)%bool; [reflexivity|contradiction].
Qed.

Lemma none_close_product : forall g p, Forall valid_axis g -> in_grid g p ->
  existsb (fun b => b) (map2 ax_close g p) = false ->
  list_product (map2 axis_indices g p) = [map Zfloor (map2 ax_absolute g p)] /\
  cell_of g (map Zfloor (map2 ax_absolute g p)).
Proof.
  intros g p Hv Hp. induction Hp as [|a x g p Hx Hp IH]; simpl; intros E.
  - split; [reflexivity|constructor].
  - inversion Hv; subst. apply Bool.orb_false_iff in E. destruct E as [E1 E2].
    destruct (IH ltac:(assumption) E2) as [I1 I2].
    destruct (not_close_axis_indices a x ltac:(assumption) Hx E1) as [J1 J2].
    rewrite J1, I1. simpl. split; [reflexivity|]. constructor; assumption.
Qed.

Lemma cells_around_product : forall g p, valid_grid g -> in_grid g p ->
  cells_around g p = map (cell_index_at (subdivisions g)) (list_product (map2 axis_indices g p)).
Proof.
  intros g p Hg Hp. unfold cells_around.
  destruct (existsb (fun b => b) (map2 ax_close g p)) eqn:E; simpl; [reflexivity|].
  destruct (none_close_product g p (proj2 Hg) Hp E) as [I1 I2]. rewrite I1. simpl.
  destruct (flat_inverse g Hg) as [F _]. destruct (F _ I2) as [[B1 B2] _].
  replace (0 <=? _)%Z with true by (symmetry; apply Z.leb_le; exact B1).
  replace (_ <=? _)%Z with true by (symmetry; apply Z.leb_le; lia). reflexivity.
Qed.

Lemma cells_around_near : forall g p, valid_grid g -> in_grid g p ->
  forall cell, In cell (cells_around g p) <->
    exists c, cell = cell_index_at (subdivisions g) c /\ near_cell g c p.
Proof.
  intros g p Hg Hp cell. rewrite cells_around_product by assumption. rewrite in_map_iff. split.
  - intros (c & E & Hc). exists c. split; [auto|]. apply product_near; [apply Hg|assumption|assumption].
  - intros (c & E & Hc). exists c. split; [auto|]. apply product_near; [apply Hg|assumption|assumption].
Qed.

Lemma cells_around_nodup : forall g p, valid_grid g -> in_grid g p -> NoDup (cells_around g p).
Proof.
  intros g p Hg Hp. rewrite cells_around_product by assumption.
  apply NoDup_map_inj with (P := cell_of g).
  - apply (inverse_injective _ _ _ _ _ _ (flat_inverse g Hg)).
  - rewrite Forall_forall. intros c Hc. apply product_near in Hc; [|apply Hg|assumption].
    eapply near_cell_of; eassumption.
  - apply NoDup_list_product. clear. revert p. induction g as [|a g IH]; intros [|x p]; simpl; constructor.
    + apply axis_indices_nodup. + apply IH.
Qed.

Lemma axiswise_impl : forall (P Q : axis -> Z -> R -> Prop) g c p,
  Forall valid_axis g -> (forall a i x, valid_axis a -> P a i x -> Q a i x) -> axiswise P g c p -> axiswise Q g c p.
Proof.
  intros P Q g c p Hv H HP. induction HP; constructor.
  - inversion Hv; subst. apply H; assumption.
  - inversion Hv; subst. apply IHHP; assumption.
Qed.

Lemma closed_cell_near : forall g c p, Forall valid_axis g -> cell_of g c -> closed_cell g c p -> near_cell g c p.
Proof.
  intros g c p Hv Hc H. induction H as [|a g i c x p Hx _ IH]; constructor.
  - inversion Hv; inversion Hc; subst. apply closed_near; assumption.
  - inversion Hv; inversion Hc; subst. apply IH; assumption.
Qed.

Lemma near_enlarged : forall g c p, Forall valid_axis g -> near_cell g c p -> enlarged_cell EPSILON g c p.
Proof.
  intros g c p Hv. apply axiswise_impl; [assumption|]. intros a i x Ha [_ H].
  apply enlarged_absolute; assumption.
Qed.

Lemma around_complete : forall g p c, valid_grid g -> in_grid g p ->
  cell_of g c -> closed_cell g c p -> In (cell_index_at (subdivisions g) c) (cells_around g p).
Proof.
  intros g p c Hg Hp Hc H. apply cells_around_near; try assumption. exists c. split; [reflexivity|].
  apply closed_cell_near; [apply Hg|assumption|assumption].
Qed.

Lemma around_sound : forall g p cell, valid_grid g -> in_grid g p -> In cell (cells_around g p) ->
  exists c, cell_of g c /\ cell = cell_index_at (subdivisions g) c /\ enlarged_cell EPSILON g c p.
Proof.
  intros g p cell Hg Hp H. apply cells_around_near in H; try assumption. destruct H as (c & E & N).
  exists c. split; [eapply near_cell_of; eassumption|]. split; [assumption|].
  apply near_enlarged; [apply Hg|assumption].
Qed.

(** Points which are on a lattice plane or at least EPSILON cell away from all of them. *)
Definition on_plane_or_away (a : axis) (x : R) : Prop :=
  forall i : Z, x = plane a i \/ EPSILON * (ax_size a / IZR (ax_n a)) <= Rabs (x - plane a i).

Lemma opa_absolute : forall a x i, valid_axis a -> on_plane_or_away a x ->
  ax_absolute a x = IZR i \/ EPSILON <= Rabs (ax_absolute a x - IZR i).
Proof.
  intros a x i Ha H. pose proof (H_pos a Ha) as HH. destruct (H i) as [E|E].
  - left. unfold ax_absolute. rewrite E, plane_H by assumption. field. lra.
  - right. change (ax_size a / IZR (ax_n a)) with (ax_H a) in E.
    rewrite (absolute_eq a x Ha) in E at 1. rewrite plane_H in E by assumption.
    replace (ax_anchor a + ax_absolute a x * ax_H a - (ax_anchor a + IZR i * ax_H a))
      with ((ax_absolute a x - IZR i) * ax_H a) in E by ring.
    rewrite Rabs_mult, (Rabs_right (ax_H a)) in E by lra.
    apply Rmult_le_reg_r in E; assumption.
Qed.

Lemma near_closed_exact : forall a x i, valid_axis a -> on_plane_or_away a x ->
  axis_near a (ax_absolute a x) i -> plane a i <= x <= plane a (i + 1).
Proof.
  intros a x i Ha H [_ N]. rewrite plane_le, plane_ge by assumption. rewrite plus_IZR.
  pose proof EPSILON_pos.
  destruct (opa_absolute a x i Ha H) as [E|E]; destruct (opa_absolute a x (i + 1) Ha H) as [E'|E'];
    rewrite ?plus_IZR in *; try lra.
  unfold Rabs in *. repeat destruct (Rcase_abs _); lra.
Qed.

Lemma around_exact : forall g p, valid_grid g -> in_grid g p -> Forall2 on_plane_or_away g p ->
  forall cell, In cell (cells_around g p) <->
    exists c, cell_of g c /\ cell = cell_index_at (subdivisions g) c /\ closed_cell g c p.
Proof.
  intros g p Hg Hp Ho cell. split.
  - intros H. apply cells_around_near in H; try assumption. destruct H as (c & E & N).
    exists c. split; [eapply near_cell_of; eassumption|]. split; [assumption|].
    destruct Hg as [_ Hv]. clear Hp E cell. induction N as [|a g i c x p Hi N IH]; constructor.
    + inversion Hv; inversion Ho; subst. apply near_closed_exact; assumption.
    + inversion Hv; inversion Ho; subst. apply IH; assumption.
  - intros (c & Hc & -> & H). apply around_complete; assumption.
Qed.

(** * C07: point location *)

Lemma Ztrunc_floor_pos : forall t, 0 <= t -> Ztrunc t = Zfloor t.
Proof. intros. apply Ztrunc_floor. assumption. Qed.

Lemma locate_half_open : forall a x, valid_axis a -> ax_anchor a <= x < ax_anchor a + ax_size a ->
  (0 <= ax_cell_coordinate a x < ax_n a)%Z /\
  plane a (ax_cell_coordinate a x) <= x < plane a (ax_cell_coordinate a x + 1).
Proof.
  intros a x Ha Hx. apply in_grid_ho_absolute in Hx; [|assumption].
  unfold ax_cell_coordinate. change ((x - ax_anchor a) / ax_H a) with (ax_absolute a x).
  rewrite plane_le, plane_gt by assumption.
  set (t := ax_absolute a x) in *. rewrite Ztrunc_floor_pos by lra.
  pose proof (Zfloor_lb t) as L. pose proof (Zfloor_ub t) as U. rewrite plus_IZR. split; [|lra].
  split; [apply IZR_lt_1; lra|]. apply lt_IZR. lra.
Qed.

Lemma locate_boundary : forall a x, valid_axis a -> ax_anchor a <= x <= ax_anchor a + ax_size a ->
  (0 <= ax_cell_coordinate_boundary a x < ax_n a)%Z /\
  plane a (ax_cell_coordinate_boundary a x) <= x <= plane a (ax_cell_coordinate_boundary a x + 1).
Proof.
  intros a x Ha Hx. pose proof (H_pos a Ha) as HH. pose proof (proj1 Ha) as Hn.
  unfold ax_cell_coordinate_boundary.
  set (up := ax_anchor a + IZR (ax_n a) * ax_H a).
  assert (Hup : up = ax_anchor a + ax_size a) by (unfold up; rewrite (size_H a Ha); reflexivity).
  destruct (Rle_dec _ _) as [B|B].
  - assert (B' : up - ax_H a / 1000000 <= x).
    { destruct (Rle_lt_dec (up - ax_H a / 1000000) x); [assumption|]. exfalso.
      assert (0 < (x - up - - (ax_H a / 1000000)) * (x - up - ax_H a / 1000000)); [|lra].
      replace ((x - up - - (ax_H a / 1000000)) * (x - up - ax_H a / 1000000))
        with ((- (x - up - - (ax_H a / 1000000))) * (- (x - up - ax_H a / 1000000))) by ring.
      apply Rmult_lt_0_compat; lra. }
    assert (E : Ztrunc ((x - ax_H a / 10 - ax_anchor a) / ax_H a) = (ax_n a - 1)%Z).
    { replace ((x - ax_H a / 10 - ax_anchor a) / ax_H a) with (ax_absolute a x - / 10)
        by (unfold ax_absolute; field; lra).
      assert (L : IZR (ax_n a) - / 1000000 <= ax_absolute a x).
      { apply Rmult_le_reg_r with (ax_H a); [assumption|]. pose proof (absolute_eq a x Ha) as EA. unfold up in B'. lra. }
      apply in_grid_absolute in Hx; [|assumption].
      assert (1 <= IZR (ax_n a)) by (apply IZR_le; lia).
      rewrite Ztrunc_floor_pos by lra. apply Zfloor_imp.
      rewrite plus_IZR, minus_IZR. lra. }
    rewrite E. split; [lia|]. replace (ax_n a - 1 + 1)%Z with (ax_n a) by lia.
    rewrite plane_n by assumption. rewrite plane_H by assumption. rewrite minus_IZR.
    unfold up in *. split; [|lra]. lra.
  - assert (x < ax_anchor a + ax_size a).
    { destruct Hx as [_ [Hx|Hx]]; [assumption|]. exfalso. apply B. rewrite Hx, <- Hup.
      replace (up - up) with 0 by ring. assert (0 < ax_H a / 1000000) by lra. nra. }
    destruct (locate_half_open a x Ha ltac:(lra)) as [P Q]. unfold ax_cell_coordinate in *.
    split; [assumption|]. lra.
Qed.

Lemma location_true : forall g p, valid_grid g -> in_grid g p ->
  cell_of g (cell_coordinates_at g p true) /\ closed_cell g (cell_coordinates_at g p true) p.
Proof.
  intros g p [_ Hv] Hp. unfold cell_coordinates_at. induction Hp as [|a x g p Hx Hp IH]; simpl.
  - split; constructor.
  - inversion Hv; subst. destruct (IH ltac:(assumption)) as [I1 I2].
    destruct (locate_boundary a x ltac:(assumption) Hx) as [J1 J2]. split; constructor; assumption.
Qed.

Lemma location_half_open : forall g p, valid_grid g -> in_grid_half_open g p ->
  cell_of g (cell_coordinates_at g p false) /\ half_open_cell g (cell_coordinates_at g p false) p.
Proof.
  intros g p [_ Hv] Hp. unfold cell_coordinates_at. induction Hp as [|a x g p Hx Hp IH]; simpl.
  - split; constructor.
  - inversion Hv; subst. destruct (IH ltac:(assumption)) as [I1 I2].
    destruct (locate_half_open a x ltac:(assumption) Hx) as [J1 J2]. split; constructor; assumption.
Qed.

Lemma index_location_true : forall g p, valid_grid g -> in_grid g p ->
  exists c, cell_of g c /\ cell_index_containing g p true = cell_index_at (subdivisions g) c /\
            closed_cell g c p.
Proof.
  intros g p Hg Hp. exists (cell_coordinates_at g p true).
  destruct (location_true g p Hg Hp). repeat split; assumption.
Qed.

(** On an axis, the half-open cell is unique. *)
Lemma half_open_unique : forall g c c' p, Forall valid_axis g ->
  half_open_cell g c p -> half_open_cell g c' p -> c = c'.
Proof.
  intros g c c' p Hv H. revert c'. induction H as [|a g i c x p Hx _ IH]; intros c' H'; inversion H' as [|? ? j ? ? ? Hy Hc']; subst.
  - reflexivity.
  - inversion Hv; subst. f_equal; [|apply IH; assumption].
    rewrite plane_le, plane_gt in Hx, Hy by assumption. rewrite plus_IZR in *.
    assert (i <= j)%Z by (apply IZR_lt_1; lra). assert (j <= i)%Z by (apply IZR_lt_1; lra). lia.
Qed.

(** * C06 *)

Lemma tiling_cover : forall g p, valid_grid g -> in_grid g p ->
  exists c, cell_of g c /\ closed_cell g c p.
Proof. intros g p Hg Hp. exists (cell_coordinates_at g p true). apply location_true; assumption. Qed.

Lemma tiling_inside : forall g c p, valid_grid g -> cell_of g c -> closed_cell g c p -> in_grid g p.
Proof.
  intros g c p [_ Hv] Hc H. induction H as [|a g i c x p Hx _ IH]; constructor.
  - inversion Hv as [|? ? Ha ?]; inversion Hc as [|? ? ? ? Hi]; subst. rewrite plane_le, plane_ge in Hx by assumption.
    apply in_grid_absolute; [assumption|]. rewrite plus_IZR in Hx.
    assert (0 <= IZR i) by (apply IZR_le; lia).
    assert (IZR i + 1 <= IZR (ax_n a)) by (rewrite <- plus_IZR; apply IZR_le; lia). lra.
  - inversion Hv; inversion Hc; subst. apply IH; assumption.
Qed.

Lemma tiling_disjoint : forall g c c' p, valid_grid g ->
  open_cell g c p -> open_cell g c' p -> c = c'.
Proof.
  intros g c c' p [_ Hv] H H'. apply (half_open_unique g c c' p Hv).
  - revert H. apply axiswise_impl; [assumption|]. intros; lra.
  - revert H'. apply axiswise_impl; [assumption|]. intros; lra.
Qed.

Lemma world_low : forall a c, ax_cell_world a c (-1) = ax_node a c.
Proof. intros. unfold ax_cell_world, ax_cell_center, ax_node. field. Qed.
Lemma world_high : forall a c, ax_cell_world a c 1 = ax_node a (c + 1).
Proof. intros. unfold ax_cell_world, ax_cell_center, ax_node. rewrite plus_IZR. field. Qed.

Lemma node2_decode : forall a b i j, valid_axis a -> valid_axis b ->
  (0 <= i <= ax_n a)%Z -> (0 <= j <= ax_n b)%Z ->
  node_at_index [a; b] (node_index_at2 (ax_n a) (i, j)) = [ax_node a i; ax_node b j].
Proof.
  intros a b i j Ha Hb Hi Hj. unfold node_at_index. cbn [subdivisions map node_coordinates_of_index].
  destruct (nodes2_inverse (ax_n a) (ax_n b) (proj1 Ha) (proj1 Hb)) as [F _].
  destruct (F (i, j)) as [_ F2]; [split; unfold below; lia|]. rewrite F2. reflexivity.
Qed.

Lemma node3_decode : forall a b c i j k, valid_axis a -> valid_axis b -> valid_axis c ->
  (0 <= i <= ax_n a)%Z -> (0 <= j <= ax_n b)%Z -> (0 <= k <= ax_n c)%Z ->
  node_at_index [a; b; c] (node_index_at3 (ax_n a) (ax_n b) (i, j, k)) = [ax_node a i; ax_node b j; ax_node c k].
Proof.
  intros a b c i j k Ha Hb Hc Hi Hj Hk. unfold node_at_index. cbn [subdivisions map node_coordinates_of_index].
  destruct (nodes3_inverse (ax_n a) (ax_n b) (ax_n c) (proj1 Ha) (proj1 Hb) (proj1 Hc)) as [F _].
  destruct (F (i, j, k)) as [_ F2]; [repeat split; unfold below; lia|]. rewrite F2. reflexivity.
Qed.

Lemma cell_nodes_correct : forall g cell, valid_grid g ->
  below (number_of_cells (subdivisions g)) cell ->
  cell_nodes g cell = map (node_at_index g) (node_indices_of (subdivisions g) cell).
Proof.
  intros g cell Hg Hc. pose proof (flat_inverse g Hg) as [_ G]. specialize (G cell Hc). destruct G as [G _].
  destruct Hg as [Hl Hv].
  destruct g as [|a [|b [|c [|d g]]]]; simpl in Hl; try lia.
  - reflexivity.
  - inversion Hv as [|? ? Ha Hv']; subst. inversion Hv' as [|? ? Hb _]; subst.
    cbn [cell_nodes subdivisions map cell_coordinates_of_index node_indices_of] in *.
    unfold node_indices_of2. destruct (cell_coordinates_at2 (ax_n a) cell) as [i j].
    inversion G as [|? ? ? ? Hi G']; subst. inversion G' as [|? ? ? ? Hj _]; subst.
    unfold node_indices_of_coords2, add2, e2_1, e2_2, quad_corners. cbn [map].
    rewrite !node2_decode by (try assumption; lia). cbn [map3].
    rewrite !world_low, !world_high. rewrite ?Z.add_0_r. reflexivity.
  - inversion Hv as [|? ? Ha Hv']; subst. inversion Hv' as [|? ? Hb Hv'']; subst.
    inversion Hv'' as [|? ? Hcc _]; subst.
    cbn [cell_nodes subdivisions map cell_coordinates_of_index node_indices_of] in *.
    unfold node_indices_of3. destruct (cell_coordinates_at3 (ax_n a) (ax_n b) cell) as [[i j] k].
    inversion G as [|? ? ? ? Hi G']; subst. inversion G' as [|? ? ? ? Hj G'']; subst.
    inversion G'' as [|? ? ? ? Hk _]; subst.
    unfold node_indices_of_coords3, add3, e3_1, e3_2, e3_3, hexa_corners. cbn [map].
    rewrite !node3_decode by (try assumption; lia). cbn [map3].
    rewrite !world_low, !world_high. rewrite ?Z.add_0_r. reflexivity.
Qed.

Lemma node_positions : forall g c, valid_grid g -> length c = length g ->
  node g c = map2 plane g c.
Proof.
  intros g c [_ Hv]. revert c. induction Hv as [|a g Ha Hv IH]; intros [|i c] Hl; simpl in *; try discriminate; [reflexivity|].
  apply (f_equal2 (@cons R)).
  - unfold ax_node. symmetry. apply plane_H; assumption.
  - apply IH. congruence.
Qed.
