(** Proofs about cells_enclosing (C09) and the counter-examples for points outside of the
    grid (C08, C09). *)

From Coq Require Import ZArith List Reals Lia Lra Psatz FinFun.
From Flocq Require Import Core.Raux Core.Generic_fmt Core.Round_NE.
From Verif Require Import GridModel GridSpec GridProofs GridGeoModel GridGeoSpec GridGeoProofs.
Import ListNotations.
Open Scope R_scope.

(** * Lists *)

Lemma Forall2_rev' : forall (A B : Type) (P : A -> B -> Prop) l m,
  Forall2 P l m -> Forall2 P (rev l) (rev m).
Proof.
  intros A B P l m H. induction H; simpl; [constructor|].
  apply Forall2_app; [assumption|]. constructor; [assumption|constructor].
Qed.

Lemma fold_left_flat_map : forall (A B C : Type) (f : A -> B -> A) (h : C -> list B) l a,
  fold_left (fun a c => fold_left f (h c) a) l a = fold_left f (flat_map h l) a.
Proof.
  induction l as [|c l IH]; intros a; simpl; [reflexivity|].
  rewrite fold_left_app. apply IH.
Qed.

Lemma fold_left_map : forall (A B C : Type) (f : A -> B -> A) (h : C -> B) l a,
  fold_left (fun a c => f a (h c)) l a = fold_left f (map h l) a.
Proof. induction l as [|c l IH]; intros a; simpl; [reflexivity|]. apply IH. Qed.

Lemma in_zrange : forall lo hi i, In i (zrange lo hi) <-> (lo <= i <= hi)%Z.
Proof.
  intros lo hi i. unfold zrange. rewrite in_map_iff. split.
  - intros (k & E & Hk). apply in_seq in Hk. lia.
  - intros H. exists (Z.to_nat (i - lo)). split; [lia|]. apply in_seq. lia.
Qed.

Lemma NoDup_zrange : forall lo hi, NoDup (zrange lo hi).
Proof.
  intros. unfold zrange. apply Injective_map_NoDup; [|apply seq_NoDup].
  intros x y E. lia.
Qed.

Lemma Forall2_length : forall (A B : Type) (P : A -> B -> Prop) l m, Forall2 P l m -> length l = length m.
Proof. intros A B P l m H. induction H; simpl; congruence. Qed.

Lemma cell_of_length : forall g c, cell_of g c -> length c = length g.
Proof. intros g c H. symmetry. eapply Forall2_length; eassumption. Qed.

Lemma decode_length : forall g i, (1 <= length g <= 3)%nat ->
  length (cell_coordinates_of_index (subdivisions g) i) = length g.
Proof.
  intros g i Hl. destruct g as [|a [|b [|c [|d g]]]]; simpl in Hl; try lia; reflexivity.
Qed.

(** * Bounds *)

Definition lo_step (ns : list Z) (b c : list Z) : list Z := map3 (fun n => lower_update (n - 1)) ns c b.
Definition hi_step (ns : list Z) (b c : list Z) : list Z := map3 (fun n => upper_update (n - 1)) ns c b.

Definition lower_bound (g : grid) (positions : list (list R)) : list Z :=
  fold_left (lo_step (subdivisions g))
    (flat_map (fun p => map (cell_coordinates_of_index (subdivisions g)) (cells_around g p)) positions)
    (map (fun n => (n - 1)%Z) (subdivisions g)).
Definition upper_bound (g : grid) (positions : list (list R)) : list Z :=
  fold_left (hi_step (subdivisions g))
    (flat_map (fun p => map (cell_coordinates_of_index (subdivisions g)) (cells_around g p)) positions)
    (map (fun _ => 0%Z) (subdivisions g)).

Lemma cells_enclosing_eq : forall g positions,
  cells_enclosing g positions =
  if existsb (fun p => contains g p EPSILON) positions then
    map (fun c => cell_index_at (subdivisions g) (rev c))
        (list_product (rev (map2 zrange (lower_bound g positions) (upper_bound g positions))))
  else [].
Proof.
  intros g positions. unfold cells_enclosing, lower_bound, upper_bound, min_between, max_between.
  set (ns := subdivisions g).
  assert (E1 : forall b l, fold_left (fun b p => fold_left (fun b0 cell =>
      map3 (fun n => lower_update (n - 1)) ns (cell_coordinates_of_index ns cell) b0) (cells_around g p) b) l b
    = fold_left (lo_step ns) (flat_map (fun p => map (cell_coordinates_of_index ns) (cells_around g p)) l) b).
  { intros b l. rewrite <- (fold_left_flat_map _ _ _ (lo_step ns)). revert b.
    induction l as [|p l IH]; intros b; simpl; [reflexivity|]. rewrite IH. f_equal.
    apply (fold_left_map _ _ _ (lo_step ns)). }
  assert (E2 : forall b l, fold_left (fun b p => fold_left (fun b0 cell =>
      map3 (fun n => upper_update (n - 1)) ns (cell_coordinates_of_index ns cell) b0) (cells_around g p) b) l b
    = fold_left (hi_step ns) (flat_map (fun p => map (cell_coordinates_of_index ns) (cells_around g p)) l) b).
  { intros b l. rewrite <- (fold_left_flat_map _ _ _ (hi_step ns)). revert b.
    induction l as [|p l IH]; intros b; simpl; [reflexivity|]. rewrite IH. f_equal.
    apply (fold_left_map _ _ _ (hi_step ns)). }
  rewrite E1, E2. reflexivity.
Qed.

Lemma lo_step_range : forall g c b, Forall valid_axis g -> length c = length g -> length b = length g ->
  cell_of g (lo_step (subdivisions g) b c).
Proof.
  intros g c b Hv. revert c b. unfold lo_step. induction Hv as [|a g [Ha _] Hv IH]; intros [|i c] [|j b]; simpl; intros; try discriminate; constructor.
  - unfold lower_update. lia.
  - apply IH; congruence.
Qed.
Lemma hi_step_range : forall g c b, Forall valid_axis g -> length c = length g -> length b = length g ->
  cell_of g (hi_step (subdivisions g) b c).
Proof.
  intros g c b Hv. revert c b. unfold hi_step. induction Hv as [|a g [Ha _] Hv IH]; intros [|i c] [|j b]; simpl; intros; try discriminate; constructor.
  - unfold upper_update. lia.
  - apply IH; congruence.
Qed.

Lemma init_lo_range : forall g, Forall valid_axis g -> cell_of g (map (fun n => (n - 1)%Z) (subdivisions g)).
Proof. intros g Hv. induction Hv as [|a g [Ha _] Hv IH]; simpl; constructor; [lia|assumption]. Qed.
Lemma init_hi_range : forall g, Forall valid_axis g -> cell_of g (map (fun _ => 0%Z) (subdivisions g)).
Proof. intros g Hv. induction Hv as [|a g [Ha _] Hv IH]; simpl; constructor; [lia|assumption]. Qed.

Lemma fold_range : forall g (step : list Z -> list Z -> list Z) cs b,
  (forall c b, length c = length g -> length b = length g -> cell_of g (step b c)) ->
  Forall (fun c => length c = length g) cs -> cell_of g b -> cell_of g (fold_left step cs b).
Proof.
  intros g step cs. induction cs as [|c cs IH]; intros b Hs Hc Hb; simpl; [assumption|].
  inversion Hc; subst. apply IH; [assumption|assumption|]. apply Hs; [assumption|].
  apply cell_of_length; assumption.
Qed.

Lemma coordinate_lengths : forall g positions, (1 <= length g <= 3)%nat ->
  Forall (fun c : list Z => length c = length g)
    (flat_map (fun p => map (cell_coordinates_of_index (subdivisions g)) (cells_around g p)) positions).
Proof.
  intros g positions Hl. rewrite Forall_forall. intros c Hc. apply in_flat_map in Hc.
  destruct Hc as (p & _ & Hc). apply in_map_iff in Hc. destruct Hc as (i & <- & _).
  apply decode_length; assumption.
Qed.

Lemma lower_bound_range : forall g ps, valid_grid g -> cell_of g (lower_bound g ps).
Proof.
  intros g ps [Hl Hv]. apply fold_range.
  - intros; apply lo_step_range; assumption.
  - apply coordinate_lengths; assumption.
  - apply init_lo_range; assumption.
Qed.
Lemma upper_bound_range : forall g ps, valid_grid g -> cell_of g (upper_bound g ps).
Proof.
  intros g ps [Hl Hv]. apply fold_range.
  - intros; apply hi_step_range; assumption.
  - apply coordinate_lengths; assumption.
  - apply init_hi_range; assumption.
Qed.

(** In range, the clipping does nothing. *)
Lemma lo_step_min : forall g c b, cell_of g c -> cell_of g b -> lo_step (subdivisions g) b c = map2 Z.min c b.
Proof.
  intros g c b Hc. revert b. unfold lo_step. induction Hc as [|a i g c Hi Hc IH]; intros b Hb; inversion Hb; subst; simpl; [reflexivity|].
  f_equal; [unfold lower_update; lia|]. apply IH; assumption.
Qed.
Lemma hi_step_max : forall g c b, cell_of g c -> cell_of g b -> hi_step (subdivisions g) b c = map2 Z.max c b.
Proof.
  intros g c b Hc. revert b. unfold hi_step. induction Hc as [|a i g c Hi Hc IH]; intros b Hb; inversion Hb; subst; simpl; [reflexivity|].
  f_equal; [unfold upper_update; lia|]. apply IH; assumption.
Qed.

Lemma nth_map2 : forall (A B C : Type) (f : A -> B -> C) l m k r,
  nth_error (map2 f l m) k = Some r ->
  exists a b, nth_error l k = Some a /\ nth_error m k = Some b /\ r = f a b.
Proof.
  intros A B C f l. induction l as [|a l IH]; intros [|b m] [|k] r; simpl; intros H; try discriminate.
  - injection H; intros; subst. exists a, b; auto.
  - apply IH; assumption.
Qed.

(** Pointwise comparison of coordinate vectors. *)
Definition le_at (l c : list Z) : Prop :=
  forall k x y, nth_error l k = Some x -> nth_error c k = Some y -> (x <= y)%Z.

Lemma fold_min_spec : forall g cs b, Forall valid_axis g -> Forall (cell_of g) cs -> cell_of g b ->
  let L := fold_left (lo_step (subdivisions g)) cs b in
  (forall c, c = b \/ In c cs -> le_at L c) /\
  (forall k x, nth_error L k = Some x -> exists c, (c = b \/ In c cs) /\ nth_error c k = Some x).
Proof.
  intros g cs. induction cs as [|c cs IH]; intros b Hv Hcs Hb; simpl.
  - split.
    + intros c [->|[]] k x y E1 E2. rewrite E1 in E2. injection E2; lia.
    + intros k x E. exists b; auto.
  - inversion Hcs as [|? ? Hc Hcs']; subst.
    assert (Hb' : cell_of g (lo_step (subdivisions g) b c))
      by (apply lo_step_range; try apply cell_of_length; assumption).
    destruct (IH _ Hv Hcs' Hb') as [I1 I2]. clear IH.
    assert (Hs : lo_step (subdivisions g) b c = map2 Z.min c b) by (apply lo_step_min; assumption).
    assert (Lmin : forall k x y z, nth_error (fold_left (lo_step (subdivisions g)) cs (lo_step (subdivisions g) b c)) k = Some x ->
       nth_error c k = Some y -> nth_error b k = Some z -> (x <= y /\ x <= z)%Z).
    { intros k x y z E1 E2 E3.
      assert (E4 : nth_error (lo_step (subdivisions g) b c) k = Some (Z.min y z)).
      { rewrite Hs. clear - E2 E3. revert b k E2 E3. induction c as [|u c IH]; intros [|v b] [|k]; simpl; try discriminate.
        - intros A B. injection A; injection B; intros; subst. reflexivity.
        - apply IH. }
      pose proof (I1 _ (or_introl eq_refl) k _ _ E1 E4). lia. }
    assert (LC : length c = length b) by (rewrite !(cell_of_length g); auto).
    assert (NB : forall (l m : list Z) k y, length l = length m -> nth_error l k = Some y -> exists z, nth_error m k = Some z).
    { intros l m k y El En. destruct (nth_error m k) eqn:Em; [eauto|].
      apply nth_error_None in Em. assert (nth_error l k <> None) by congruence. apply nth_error_Some in H. lia. }
    split.
    + intros d [->|[->|Hd]] k x y E1 E2.
      * destruct (NB b c k y (eq_sym LC) E2) as [z Ez]. apply (Lmin k x z y); assumption.
      * destruct (NB d b k y LC E2) as [z Ez]. apply (Lmin k x y z); assumption.
      * apply (I1 d (or_intror Hd) k); assumption.
    + intros k x E. destruct (I2 k x E) as (d & [->|Hd] & Ed).
      * rewrite Hs in Ed. apply nth_map2 in Ed. destruct Ed as (y & z & E1 & E2 & ->).
        destruct (Z.min_spec y z) as [[_ ->]|[_ ->]]; [exists c|exists b]; auto.
      * exists d; auto.
Qed.

Lemma fold_max_spec : forall g cs b, Forall valid_axis g -> Forall (cell_of g) cs -> cell_of g b ->
  let U := fold_left (hi_step (subdivisions g)) cs b in
  (forall c, c = b \/ In c cs -> le_at c U) /\
  (forall k x, nth_error U k = Some x -> exists c, (c = b \/ In c cs) /\ nth_error c k = Some x).
Proof.
  intros g cs. induction cs as [|c cs IH]; intros b Hv Hcs Hb; simpl.
  - split.
    + intros c [->|[]] k x y E1 E2. rewrite E1 in E2. injection E2; lia.
    + intros k x E. exists b; auto.
  - inversion Hcs as [|? ? Hc Hcs']; subst.
    assert (Hb' : cell_of g (hi_step (subdivisions g) b c))
      by (apply hi_step_range; try apply cell_of_length; assumption).
    destruct (IH _ Hv Hcs' Hb') as [I1 I2]. clear IH.
    assert (Hs : hi_step (subdivisions g) b c = map2 Z.max c b) by (apply hi_step_max; assumption).
    assert (Lmax : forall k x y z, nth_error (fold_left (hi_step (subdivisions g)) cs (hi_step (subdivisions g) b c)) k = Some x ->
       nth_error c k = Some y -> nth_error b k = Some z -> (y <= x /\ z <= x)%Z).
    { intros k x y z E1 E2 E3.
      assert (E4 : nth_error (hi_step (subdivisions g) b c) k = Some (Z.max y z)).
      { rewrite Hs. clear - E2 E3. revert b k E2 E3. induction c as [|u c IH]; intros [|v b] [|k]; simpl; try discriminate.
        - intros A B. injection A; injection B; intros; subst. reflexivity.
        - apply IH. }
      pose proof (I1 _ (or_introl eq_refl) k _ _ E4 E1). lia. }
    assert (LC : length c = length b) by (rewrite !(cell_of_length g); auto).
    assert (NB : forall (l m : list Z) k y, length l = length m -> nth_error l k = Some y -> exists z, nth_error m k = Some z).
    { intros l m k y El En. destruct (nth_error m k) eqn:Em; [eauto|].
      apply nth_error_None in Em. assert (nth_error l k <> None) by congruence. apply nth_error_Some in H. lia. }
    split.
    + intros d [->|[->|Hd]] k x y E1 E2.
      * destruct (NB b c k x (eq_sym LC) E1) as [z Ez]. apply (Lmax k y z x); assumption.
      * destruct (NB d b k x LC E1) as [z Ez]. apply (Lmax k y x z); assumption.
      * apply (I1 d (or_intror Hd) k); assumption.
    + intros k x E. destruct (I2 k x E) as (d & [->|Hd] & Ed).
      * rewrite Hs in Ed. apply nth_map2 in Ed. destruct Ed as (y & z & E1 & E2 & ->).
        destruct (Z.max_spec y z) as [[_ ->]|[_ ->]]; [exists b|exists c]; auto.
      * exists d; auto.
Qed.

(** * Membership in the result *)

Lemma Forall2_le_at : forall l c, length l = length c -> (le_at l c <-> Forall2 Z.le l c).
Proof.
  induction l as [|x l IH]; intros [|y c] Hl; simpl in Hl; try discriminate.
  - split; [constructor|]. intros _ [|k] ? ?; simpl; discriminate.
  - split.
    + intros H. constructor; [apply (H 0%nat); reflexivity|]. apply IH; [congruence|].
      intros k. apply (H (S k)).
    + intros H. inversion H; subst. intros [|k] u v; simpl.
      * intros A B. injection A; injection B; intros; subst; assumption.
      * apply IH; [congruence|assumption].
Qed.

Lemma in_box : forall L U c, Forall2 (fun l i => In i l) (map2 zrange L U) c -> length L = length U ->
  Forall2 Z.le L c /\ Forall2 Z.le c U.
Proof.
  induction L as [|l L IH]; intros [|u U] c H Hl; simpl in *; try discriminate.
  - inversion H; split; constructor.
  - inversion H as [|? i ? c' Hi Hc]; subst. apply in_zrange in Hi.
    destruct (IH U c' Hc ltac:(congruence)). split; constructor; auto; lia.
Qed.
Lemma box_in : forall L U c, Forall2 Z.le L c -> Forall2 Z.le c U ->
  Forall2 (fun l i => In i l) (map2 zrange L U) c.
Proof.
  intros L U c H. revert U. induction H; intros U H'; inversion H'; subst; simpl; constructor.
  - apply in_zrange. lia.
  - apply IHForall2; assumption.
Qed.

Lemma in_enclosing : forall g ps, valid_grid g ->
  existsb (fun p => contains g p EPSILON) ps = true ->
  forall cell, In cell (cells_enclosing g ps) <->
  exists c, cell = cell_index_at (subdivisions g) c /\
    Forall2 Z.le (lower_bound g ps) c /\ Forall2 Z.le c (upper_bound g ps).
Proof.
  intros g ps Hg He cell. rewrite cells_enclosing_eq, He.
  assert (Hl : length (lower_bound g ps) = length (upper_bound g ps)).
  { rewrite !(cell_of_length g); [reflexivity|apply upper_bound_range; assumption|apply lower_bound_range; assumption]. }
  rewrite in_map_iff. split.
  - intros (c & E & Hc). exists (rev c). split; [auto|]. apply in_list_product in Hc.
    apply Forall2_rev' in Hc. rewrite rev_involutive in Hc. apply in_box; assumption.
  - intros (c & E & H1 & H2). exists (rev c). rewrite rev_involutive. split; [auto|].
    apply in_list_product. apply Forall2_rev'. apply box_in; assumption.
Qed.

Lemma between_cell_of : forall g l c u, cell_of g l -> cell_of g u -> Forall2 Z.le l c -> Forall2 Z.le c u -> cell_of g c.
Proof.
  intros g l c u Hl. revert c u. induction Hl; intros c u Hu H1 H2; inversion H1; subst; inversion H2; subst; inversion Hu; subst; constructor.
  - lia.
  - eapply IHHl; eassumption.
Qed.

(** For arbitrary points: valid cells, no duplicates. *)
Lemma enclosing_valid : forall g ps, valid_grid g ->
  Forall (below (number_of_cells (subdivisions g))) (cells_enclosing g ps) /\ NoDup (cells_enclosing g ps).
Proof.
  intros g ps Hg.
  destruct (existsb (fun p => contains g p EPSILON) ps) eqn:He.
  2:{ rewrite cells_enclosing_eq, He. split; constructor. }
  pose proof (lower_bound_range g ps Hg) as HL. pose proof (upper_bound_range g ps Hg) as HU.
  split.
  - rewrite Forall_forall. intros cell Hc. apply in_enclosing in Hc; [|assumption|assumption].
    destruct Hc as (c & -> & H1 & H2). apply (flat_inverse g Hg).
    apply (between_cell_of g (lower_bound g ps) _ (upper_bound g ps)); assumption.
  - rewrite cells_enclosing_eq, He.
    rewrite <- (map_map (@rev Z) (cell_index_at (subdivisions g))).
    apply NoDup_map_inj with (P := cell_of g).
    + apply (inverse_injective _ _ _ _ _ _ (flat_inverse g Hg)).
    + rewrite Forall_forall. intros c Hc. apply in_map_iff in Hc. destruct Hc as (d & <- & Hd).
      apply in_list_product in Hd. apply Forall2_rev' in Hd. rewrite rev_involutive in Hd.
      apply in_box in Hd; [|rewrite !(cell_of_length g); auto].
      destruct Hd. apply (between_cell_of g (lower_bound g ps) _ (upper_bound g ps)); assumption.
    + apply Injective_map_NoDup.
      * intros x y E. rewrite <- (rev_involutive x), E. apply rev_involutive.
      * apply NoDup_list_product. apply Forall_rev. clear.
        generalize (lower_bound g ps) (upper_bound g ps). induction l as [|x l IH]; intros [|y m]; simpl; constructor.
        -- apply NoDup_zrange. -- apply IH.
Qed.

(** * Points inside of the grid *)

Lemma contains_in_grid : forall g p, Forall valid_axis g -> in_grid g p -> contains g p EPSILON = true.
Proof.
  intros g p Hv Hp. unfold contains. induction Hp as [|a x g p Hx Hp IH]; simpl; [reflexivity|].
  inversion Hv as [|? ? Ha Hv']; subst. rewrite IH by assumption. rewrite Bool.andb_true_r.
  unfold ax_contains. pose proof EPSILON_pos. pose proof (proj2 Ha) as Hs.
  assert (0 <= (x - ax_anchor a) / ax_size a <= 1).
  { split.
    - apply Rmult_le_reg_r with (ax_size a); [assumption|]. field_simplify; lra.
    - apply Rmult_le_reg_r with (ax_size a); [assumption|]. field_simplify; lra. }
  destruct (Rlt_dec _ _); [lra|]. destruct (Rlt_dec _ _); [lra|]. reflexivity.
Qed.

(** The lowest and the highest cell of an axis touching a coordinate. *)
Definition low_idx (a : axis) (x : R) : Z := Z.max 0 (Zceil (ax_absolute a x) - 1).
Definition high_idx (a : axis) (x : R) : Z := Z.min (ax_n a - 1) (Zfloor (ax_absolute a x)).

Lemma low_idx_spec : forall a x, valid_axis a -> ax_anchor a <= x <= ax_anchor a + ax_size a ->
  (0 <= low_idx a x < ax_n a)%Z /\ plane a (low_idx a x) <= x <= plane a (low_idx a x + 1).
Proof.
  intros a x Ha Hx. apply in_grid_absolute in Hx; [|assumption]. pose proof (proj1 Ha).
  rewrite plane_le, plane_ge by assumption. rewrite plus_IZR. unfold low_idx.
  set (t := ax_absolute a x) in *. pose proof (Zceil_ub t) as U. pose proof (Zceil_lb t) as L.
  assert (Zceil t <= ax_n a)%Z by (apply Zceil_glb; lra).
  assert (0 <= Zceil t)%Z by (apply IZR_lt_1; lra).
  destruct (Z.max_spec 0 (Zceil t - 1)) as [[A ->]|[A ->]].
  - rewrite minus_IZR. split; [lia|]. lra.
  - split; [lia|]. assert (IZR (Zceil t) <= 1) by (apply IZR_le; lia). simpl. lra.
Qed.

Lemma low_idx_min : forall a x i, valid_axis a -> (0 <= i)%Z -> x <= plane a (i + 1) -> (low_idx a x <= i)%Z.
Proof.
  intros a x i Ha Hi Hx. apply plane_ge in Hx; [|assumption]. unfold low_idx.
  apply Zceil_glb in Hx. lia.
Qed.

Lemma high_idx_spec : forall a x, valid_axis a -> ax_anchor a <= x <= ax_anchor a + ax_size a ->
  (0 <= high_idx a x < ax_n a)%Z /\ plane a (high_idx a x) <= x <= plane a (high_idx a x + 1).
Proof.
  intros a x Ha Hx. apply in_grid_absolute in Hx; [|assumption]. pose proof (proj1 Ha).
  rewrite plane_le, plane_ge by assumption. rewrite plus_IZR. unfold high_idx.
  set (t := ax_absolute a x) in *. pose proof (Zfloor_ub t) as U. pose proof (Zfloor_lb t) as L.
  assert (0 <= Zfloor t)%Z by (apply Zfloor_lub; lra).
  assert (Zfloor t <= ax_n a)%Z by (apply IZR_lt_1; lra).
  destruct (Z.min_spec (ax_n a - 1) (Zfloor t)) as [[A ->]|[A ->]].
  - rewrite minus_IZR. split; [lia|]. assert (IZR (ax_n a) <= IZR (Zfloor t)) by (apply IZR_le; lia). lra.
  - split; [lia|]. lra.
Qed.

Lemma high_idx_max : forall a x i, valid_axis a -> (i < ax_n a)%Z -> plane a i <= x -> (i <= high_idx a x)%Z.
Proof.
  intros a x i Ha Hi Hx. apply plane_le in Hx; [|assumption]. unfold high_idx.
  apply Zfloor_lub in Hx. lia.
Qed.

Lemma corner_cells : forall g p (f : axis -> R -> Z), Forall valid_axis g -> in_grid g p ->
  (forall a x, valid_axis a -> ax_anchor a <= x <= ax_anchor a + ax_size a ->
    (0 <= f a x < ax_n a)%Z /\ plane a (f a x) <= x <= plane a (f a x + 1)) ->
  cell_of g (map2 f g p) /\ closed_cell g (map2 f g p) p.
Proof.
  intros g p f Hv Hp Hf. induction Hp as [|a x g p Hx Hp IH]; simpl; [split; constructor|].
  inversion Hv; subst. destruct (IH ltac:(assumption)). destruct (Hf a x ltac:(assumption) Hx).
  split; constructor; assumption.
Qed.

Lemma decoded_in : forall g ps p c, valid_grid g -> In p ps -> in_grid g p -> cell_of g c -> closed_cell g c p ->
  In c (flat_map (fun p => map (cell_coordinates_of_index (subdivisions g)) (cells_around g p)) ps).
Proof.
  intros g ps p c Hg Hin Hp Hc Hcl. apply in_flat_map. exists p. split; [assumption|].
  apply in_map_iff. exists (cell_index_at (subdivisions g) c). split.
  - apply (flat_inverse g Hg). assumption.
  - apply around_complete; assumption.
Qed.

Lemma decoded_cells : forall g ps, valid_grid g -> Forall (in_grid g) ps ->
  Forall (cell_of g) (flat_map (fun p => map (cell_coordinates_of_index (subdivisions g)) (cells_around g p)) ps).
Proof.
  intros g ps Hg Hps. rewrite Forall_forall in *. intros c Hc. apply in_flat_map in Hc.
  destruct Hc as (p & Hp & Hc). apply in_map_iff in Hc. destruct Hc as (i & <- & Hi).
  apply around_sound in Hi; [|assumption|auto]. destruct Hi as (c & Hc & -> & _).
  destruct (flat_inverse g Hg) as [F _]. destruct (F c Hc) as [_ ->]. assumption.
Qed.

Lemma nth_map2_intro : forall (A B C : Type) (f : A -> B -> C) l m k a b,
  nth_error l k = Some a -> nth_error m k = Some b -> nth_error (map2 f l m) k = Some (f a b).
Proof.
  intros A B C f l. induction l as [|a l IH]; intros [|b m] [|k] x y; simpl; try discriminate.
  - intros E1 E2. injection E1; injection E2; intros; subst. reflexivity.
  - apply IH.
Qed.

Lemma axiswise_nth : forall P g c p, axiswise P g c p -> forall k i, nth_error c k = Some i ->
  exists a x, nth_error g k = Some a /\ nth_error p k = Some x /\ P a i x.
Proof.
  intros P g c p H. induction H as [|a g i c x p Hx _ IH]; intros [|k] j; simpl; intros E; try discriminate.
  - injection E; intros; subst. exists a, x; auto.
  - apply IH; assumption.
Qed.

Lemma Forall_nth' : forall (A : Type) (P : A -> Prop) l k a, Forall P l -> nth_error l k = Some a -> P a.
Proof. intros A P l k a H E. rewrite Forall_forall in H. apply H. eapply nth_error_In; eassumption. Qed.

Lemma Forall2_nth' : forall (A B : Type) (P : A -> B -> Prop) l m k a b,
  Forall2 P l m -> nth_error l k = Some a -> nth_error m k = Some b -> P a b.
Proof.
  intros A B P l m k a b H. revert k. induction H; intros [|k]; simpl; try discriminate.
  - intros E1 E2. injection E1; injection E2; intros; subst; assumption.
  - apply IHForall2.
Qed.

Lemma enclosing_covers : forall g ps c q, valid_grid g -> ps <> [] -> Forall (in_grid g) ps ->
  cell_of g c -> closed_cell g c q -> in_bounding_box ps q ->
  In (cell_index_at (subdivisions g) c) (cells_enclosing g ps).
Proof.
  intros g ps c q Hg Hne Hps Hc Hq Hb. pose proof (proj2 Hg) as Hv.
  assert (He : existsb (fun p => contains g p EPSILON) ps = true).
  { destruct ps as [|p ps]; [congruence|]. inversion Hps; subst. simpl.
    rewrite contains_in_grid by assumption. reflexivity. }
  apply in_enclosing; [assumption|assumption|]. exists c. split; [reflexivity|].
  pose proof (decoded_cells g ps Hg Hps) as HD.
  destruct (fold_min_spec g _ _ Hv HD (init_lo_range g Hv)) as [Lo _].
  destruct (fold_max_spec g _ _ Hv HD (init_hi_range g Hv)) as [Hi _].
  pose proof (lower_bound_range g ps Hg) as HL. pose proof (upper_bound_range g ps Hg) as HU.
  split; apply Forall2_le_at; try (rewrite !(cell_of_length g); auto; fail).
  - intros k l i El Ei. destruct (axiswise_nth _ _ _ _ Hq k i Ei) as (a & x & Ea & Ex & Px).
    destruct (Hb k x Ex) as [(p & y & Hp & Ey & Hyx) _].
    assert (Hpg : in_grid g p) by (rewrite Forall_forall in Hps; auto).
    destruct (corner_cells g p low_idx Hv Hpg low_idx_spec) as [C1 C2].
    pose proof (decoded_in g ps p _ Hg Hp Hpg C1 C2) as Hin.
    pose proof (Lo _ (or_intror Hin) k l (low_idx a y) El (nth_map2_intro _ _ _ low_idx g p k a y Ea Ey)).
    pose proof (Forall2_nth' _ _ _ _ _ _ _ _ Hc Ea Ei). simpl in *.
    pose proof (low_idx_min a y i (Forall_nth' _ _ _ _ _ Hv Ea) ltac:(lia) ltac:(lra)). lia.
  - intros k i u Ei Eu. destruct (axiswise_nth _ _ _ _ Hq k i Ei) as (a & x & Ea & Ex & Px).
    destruct (Hb k x Ex) as [_ (p & y & Hp & Ey & Hyx)].
    assert (Hpg : in_grid g p) by (rewrite Forall_forall in Hps; auto).
    destruct (corner_cells g p high_idx Hv Hpg high_idx_spec) as [C1 C2].
    pose proof (decoded_in g ps p _ Hg Hp Hpg C1 C2) as Hin.
    pose proof (Hi _ (or_intror Hin) k (high_idx a y) u (nth_map2_intro _ _ _ high_idx g p k a y Ea Ey) Eu).
    pose proof (Forall2_nth' _ _ _ _ _ _ _ _ Hc Ea Ei). simpl in *.
    pose proof (high_idx_max a y i (Forall_nth' _ _ _ _ _ Hv Ea) ltac:(lia) ltac:(lra)). lia.
Qed.

(** Nothing more than the cells which (enlarged by EPSILON) meet the bounding box. *)
Lemma enclosing_tight : forall g ps cell, valid_grid g -> Forall (in_grid g) ps ->
  In cell (cells_enclosing g ps) ->
  exists c, cell_of g c /\ cell = cell_index_at (subdivisions g) c /\
    forall k a i, nth_error g k = Some a -> nth_error c k = Some i ->
      (exists p y, In p ps /\ nth_error p k = Some y /\
         y < plane a (i + 1) + EPSILON * (ax_size a / IZR (ax_n a))) /\
      (exists p y, In p ps /\ nth_error p k = Some y /\
         plane a i - EPSILON * (ax_size a / IZR (ax_n a)) < y).
Proof.
  intros g ps cell Hg Hps Hin. pose proof (proj2 Hg) as Hv.
  assert (He : existsb (fun p => contains g p EPSILON) ps = true).
  { destruct (existsb (fun p => contains g p EPSILON) ps) eqn:E; [reflexivity|].
    rewrite cells_enclosing_eq, E in Hin. destruct Hin. }
  assert (Hex : exists p, In p ps).
  { apply existsb_exists in He. destruct He as (p & Hp & _). exists p; assumption. }
  destruct Hex as [p0 Hp0].
  apply in_enclosing in Hin; [|assumption|assumption]. destruct Hin as (c & E & H1 & H2).
  pose proof (lower_bound_range g ps Hg) as HL. pose proof (upper_bound_range g ps Hg) as HU.
  assert (Hc : cell_of g c) by (apply (between_cell_of g (lower_bound g ps) _ (upper_bound g ps)); assumption).
  exists c. split; [assumption|]. split; [assumption|].
  intros k a i Ea Ei.
  pose proof (decoded_cells g ps Hg Hps) as HD.
  destruct (fold_min_spec g _ _ Hv HD (init_lo_range g Hv)) as [Lo1 Lo2].
  destruct (fold_max_spec g _ _ Hv HD (init_hi_range g Hv)) as [Hi1 Hi2].
  assert (Ha : valid_axis a) by (eapply Forall_nth'; eassumption).
  pose proof (Forall2_nth' _ _ _ _ _ _ _ _ Hc Ea Ei) as Ri. simpl in Ri.
  assert (Hlen : (k < length g)%nat) by (apply nth_error_Some; congruence).
  (* every decoded cell is near one of the points *)
  assert (Near : forall d j, In d (flat_map (fun p => map (cell_coordinates_of_index (subdivisions g)) (cells_around g p)) ps) ->
    nth_error d k = Some j -> exists p y, In p ps /\ nth_error p k = Some y /\
      plane a j - EPSILON * (ax_size a / IZR (ax_n a)) < y < plane a (j + 1) + EPSILON * (ax_size a / IZR (ax_n a))).
  { intros d j Hd Ej. apply in_flat_map in Hd. destruct Hd as (p & Hp & Hd).
    apply in_map_iff in Hd. destruct Hd as (z & <- & Hz).
    apply around_sound in Hz; [|assumption|rewrite Forall_forall in Hps; auto].
    destruct Hz as (d & Hd & -> & Hen). destruct (flat_inverse g Hg) as [F _].
    destruct (F d Hd) as [_ Ed]. rewrite Ed in Ej.
    destruct (axiswise_nth _ _ _ _ Hen k j Ej) as (a' & y & Ea' & Ey & Py).
    rewrite Ea in Ea'. injection Ea'; intros; subst a'. exists p, y. auto. }
  assert (Mono : forall i j, (i <= j)%Z -> plane a i <= plane a j).
  { intros u v Huv. rewrite !plane_H by assumption. pose proof (H_pos a Ha).
    apply IZR_le in Huv. nra. }
  (* the touching cells of the first point bound the initial values away *)
  assert (Hpg : in_grid g p0) by (rewrite Forall_forall in Hps; auto).
  destruct (corner_cells g p0 low_idx Hv Hpg low_idx_spec) as [C1 C2].
  pose proof (decoded_in g ps p0 _ Hg Hp0 Hpg C1 C2) as Hin0.
  destruct (nth_error p0 k) as [y0|] eqn:Ey0.
  2:{ exfalso. apply nth_error_None in Ey0. assert (length g = length p0) by (eapply Forall2_length; eassumption). lia. }
  pose proof (nth_map2_intro _ _ _ low_idx g p0 k a y0 Ea Ey0) as El0.
  pose proof (Forall2_nth' _ _ _ _ _ _ _ _ C1 Ea El0) as R0. simpl in R0.
  split.
  - destruct (nth_error (lower_bound g ps) k) as [l|] eqn:El.
    2:{ exfalso. apply nth_error_None in El. rewrite (cell_of_length g) in El by assumption. lia. }
    pose proof (Forall2_nth' _ _ _ _ _ _ _ _ H1 El Ei) as Hli. simpl in Hli.
    destruct (Lo2 k l El) as (d & [->|Hd] & Ed).
    + (* the bound kept its initial value n-1 *)
      assert (l = (ax_n a - 1)%Z).
      { rewrite nth_error_map in Ed. unfold subdivisions in Ed. rewrite nth_error_map, Ea in Ed. simpl in Ed.
        injection Ed; intros; lia. }
      destruct (Near _ _ Hin0 El0) as (p & y & Hp & Ey & Hy).
      exists p, y. split; [assumption|]. split; [assumption|].
      pose proof (Mono (low_idx a y0 + 1)%Z (i + 1)%Z ltac:(lia)). lra.
    + destruct (Near _ _ Hd Ed) as (p & y & Hp & Ey & Hy).
      exists p, y. split; [assumption|]. split; [assumption|].
      pose proof (Mono (l + 1)%Z (i + 1)%Z ltac:(lia)). lra.
  - destruct (nth_error (upper_bound g ps) k) as [u|] eqn:Eu.
    2:{ exfalso. apply nth_error_None in Eu. rewrite (cell_of_length g) in Eu by assumption. lia. }
    pose proof (Forall2_nth' _ _ _ _ _ _ _ _ H2 Ei Eu) as Hui. simpl in Hui.
    destruct (Hi2 k u Eu) as (d & [->|Hd] & Ed).
    + assert (u = 0%Z).
      { rewrite nth_error_map in Ed. unfold subdivisions in Ed. rewrite nth_error_map, Ea in Ed. simpl in Ed.
        injection Ed; intros; lia. }
      destruct (Near _ _ Hin0 El0) as (p & y & Hp & Ey & Hy).
      exists p, y. split; [assumption|]. split; [assumption|].
      pose proof (Mono i (low_idx a y0) ltac:(lia)). lra.
    + destruct (Near _ _ Hd Ed) as (p & y & Hp & Ey & Hy).
      exists p, y. split; [assumption|]. split; [assumption|].
      pose proof (Mono i u ltac:(lia)). lra.
Qed.

(** * Points outside of the grid: counter-examples *)

Lemma not_close_mid : forall a x k, IZR k + / 4 <= ax_absolute a x <= IZR k + 3 / 4 -> ax_close a x = false.
Proof.
  intros a x k Hk. destruct (ax_close a x) eqn:C; [|reflexivity]. exfalso.
  apply close_spec in C. destruct C as (r & Hr & _). apply Rabs_def2 in Hr. pose proof EPSILON_small.
  assert (k < r)%Z by (apply lt_IZR; lra).
  assert (r < k + 1)%Z by (apply lt_IZR; rewrite plus_IZR; lra). lia.
Qed.

Definition unit_axis (n : Z) : axis := Axis 0 n (IZR n).
Lemma unit_axis_absolute : forall n x, (0 < n)%Z -> ax_absolute (unit_axis n) x = x.
Proof.
  intros n x Hn. unfold ax_absolute, ax_H, unit_axis; simpl. apply IZR_lt in Hn. field. lra.
Qed.
Lemma unit_axis_valid : forall n, (0 < n)%Z -> valid_axis (unit_axis n).
Proof. intros n Hn. split; [exact Hn|apply IZR_lt; exact Hn]. Qed.

Lemma close_int : forall a x k, ax_absolute a x = IZR k -> ax_close a x = true.
Proof.
  intros a x k E. apply close_spec. exists k. rewrite E. split.
  - replace (IZR k - IZR k) with 0 by ring. rewrite Rabs_R0. apply EPSILON_pos.
  - apply Znearest_imp. replace (IZR k - IZR k) with 0 by ring. rewrite Rabs_R0. lra.
Qed.
Lemma nearest_int : forall k, ZnearestA (IZR k) = k.
Proof. intros k. apply Znearest_imp. replace (IZR k - IZR k) with 0 by ring. rewrite Rabs_R0. lra. Qed.

(** On a 2 x 2 unit grid, the point (2.5, 0.5) is outside, but cells_around returns cell 2. *)
Lemma around_outside_wrap : cells_around [unit_axis 2; unit_axis 2] [5 / 2; 1 / 2] = [2%Z].
Proof.
  unfold cells_around. cbn [map2 existsb].
  rewrite (not_close_mid (unit_axis 2) (5 / 2) 2), (not_close_mid (unit_axis 2) (1 / 2) 0)
    by (rewrite unit_axis_absolute by lia; lra).
  cbn [negb orb]. cbn [map]. rewrite !unit_axis_absolute by lia.
  replace (Zfloor (5 / 2)) with 2%Z by (symmetry; apply Zfloor_imp; simpl; lra).
  replace (Zfloor (1 / 2)) with 0%Z by (symmetry; apply Zfloor_imp; simpl; lra).
  reflexivity.
Qed.

(** On a 1D grid with 4 unit cells, the point 7 is outside, but cells_around returns the
    cell index 6, which does not exist. *)
Lemma around_outside_invalid : cells_around [unit_axis 4] [7] = [6%Z].
Proof.
  assert (E : ax_absolute (unit_axis 4) 7 = 7) by (apply unit_axis_absolute; lia).
  unfold cells_around. cbn [map2 existsb].
  rewrite (close_int (unit_axis 4) 7 7 E). cbn [negb orb].
  unfold axis_indices. rewrite (close_int (unit_axis 4) 7 7 E). unfold ax_rounded. rewrite E, nearest_int.
  rewrite floor_minus_half, floor_plus_half. reflexivity.
Qed.

(** 1D grid [0,4] with unit cells: points 1.5 (inside) and 10.5 (outside). *)
Lemma enclosing_outside : cells_enclosing [unit_axis 4] [[3 / 2]; [21 / 2]] = [1%Z].
Proof.
  assert (A1 : cells_around [unit_axis 4] [3 / 2] = [1%Z]).
  { unfold cells_around. cbn [map2 existsb].
    rewrite (not_close_mid (unit_axis 4) (3 / 2) 1) by (rewrite unit_axis_absolute by lia; lra).
    cbn [negb orb map]. rewrite !unit_axis_absolute by lia.
    replace (Zfloor (3 / 2)) with 1%Z by (symmetry; apply Zfloor_imp; simpl; lra). reflexivity. }
  assert (A2 : cells_around [unit_axis 4] [21 / 2] = []).
  { unfold cells_around. cbn [map2 existsb].
    rewrite (not_close_mid (unit_axis 4) (21 / 2) 10) by (rewrite unit_axis_absolute by lia; lra).
    cbn [negb orb map]. rewrite !unit_axis_absolute by lia.
    replace (Zfloor (21 / 2)) with 10%Z by (symmetry; apply Zfloor_imp; simpl; lra). reflexivity. }
  unfold cells_enclosing. cbn [fold_left existsb]. rewrite A1, A2.
  assert (C : contains [unit_axis 4] [3 / 2] EPSILON = true).
  { apply contains_in_grid.
    - constructor; [apply unit_axis_valid; lia|constructor].
    - constructor; [simpl; lra|constructor]. }
  rewrite C. reflexivity.
Qed.
