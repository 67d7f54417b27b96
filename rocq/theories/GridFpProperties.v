(** C82: the location queries of the grids with the doubles of the code. *)

From Coq Require Import ZArith Reals Lra Lia Psatz List Bool.
From Flocq Require Import Core.Core IEEE754.BinarySingleNaN.
From Verif Require Import GridModel GridGeoModel GridGeoSpec GridGeoProofs FpModel FpProofs GridFpModel GridFpProofs GridFpAroundProofs.
Import ListNotations.
Open Scope R_scope.

(** ** Specification vocabulary

    [val x] is the real number a finite double [x] stands for; the grid of reals [real_grid g] has the anchor, subdivisions and size of [g].
    [plane], [in_grid], [cell_of] and [node_of] are those of the grids of reals (GridGeoSpec). *)
Definition real_grid (g : fgrid) : grid := map real_axis g.
(** Dimension 1, 2 or 3; at most 2^48 subdivisions, sizes between 2^-300 and 2^300, anchors below 2^300. *)
Definition ordinary_grid (g : fgrid) : Prop := (1 <= length g <= 3)%nat /\ Forall ordinary g.
(** Not further from the origin than 2^28 of its cells. *)
Definition well_placed_grid (g : fgrid) : Prop := Forall well_placed g.
Definition finite_point (p : list double) : Prop := Forall fin p.
Definition point (p : list double) : list R := map val p.

(** The point is in the closed box of the cell [c] enlarged, on each side, by 2^-50 of its distance to the anchor. *)
Definition slack (a : axis) (k : Z) : R := IZR k * bpow radix2 (-50) * (ax_size a / IZR (ax_n a)).
Definition in_cell_up_to_rounding : grid -> list Z -> list R -> Prop :=
  axiswise (fun a i x => plane a i - slack a i <= x <= plane a (i + 1) + slack a (i + 1)).
(** The point is inside the cell, away from its sides by 2^-49 of their distance to the anchor. *)
Definition well_inside : grid -> list Z -> list R -> Prop :=
  axiswise (fun a i x => plane a i + 2 * slack a i <= x <= plane a (i + 1) - 2 * slack a (i + 1)).

(** The grid without a strip of relative width 2^-49 along its upper sides. *)
Definition below_upper_sides : grid -> list R -> Prop := Forall2 (fun a x => ax_anchor a <= x <= ax_anchor a + ax_size a * (1 - bpow radix2 (-49))).

(** ** From axes to grids *)

Lemma lift_axes : forall (f : faxis -> double -> option Z) (Q : faxis -> Z -> double -> Prop) (Hyp : faxis -> Prop) g p,
  (forall a x, Hyp a -> fin x -> val (fa_anchor a) <= val x <= val (fa_anchor a) + val (fa_size a) -> exists j, f a x = Some j /\ Q a j x) ->
  Forall Hyp g -> finite_point p -> in_grid (real_grid g) (point p) ->
  exists c, all_some (map2 f g p) = Some c /\ length c = length g /\ (forall k a j x, nth_error g k = Some a -> nth_error c k = Some j -> nth_error p k = Some x -> Q a j x).
Proof.
  intros f Q Hyp. induction g as [|a g IH]; intros p H Hg Fp I.
  - exists []. split; [|split; [reflexivity|]]; [destruct p; reflexivity|]. intros k a j x E. destruct k; discriminate.
  - destruct p as [|x p]; [inversion I|]. unfold real_grid, point, in_grid in I. cbn [map] in I. inversion I as [|? ? ? ? I1 I2]; subst. apply Forall_cons_iff in Hg, Fp.
    destruct (H a x (proj1 Hg) (proj1 Fp) I1) as (j & E & Hj). destruct (IH p H (proj2 Hg) (proj2 Fp) I2) as (c & Ec & Lc & Hc).
    exists (j :: c). cbn [map2 all_some]. rewrite E, Ec. split; [reflexivity|]. split; [cbn; congruence|].
    intros k b i y K1 K2 K3. destruct k; cbn in K1, K2, K3; [congruence|]. apply (Hc k); assumption.
Qed.
Lemma axiswise_nth : forall (P : axis -> Z -> R -> Prop) g c p, length c = length g -> length p = length g ->
  (forall k a j x, nth_error g k = Some a -> nth_error c k = Some j -> nth_error p k = Some x -> P (real_axis a) j (val x)) ->
  axiswise P (real_grid g) c (point p).
Proof.
  intros P. induction g as [|a g IH]; intros c p Lc Lp H; destruct c as [|j c]; try discriminate; destruct p as [|x p]; try discriminate; [constructor|].
  cbn. constructor; [apply (H 0%nat); reflexivity|]. apply IH; [cbn in Lc; lia|cbn in Lp; lia|]. intros k b i y K1 K2 K3. apply (H (S k)); assumption.
Qed.
Lemma in_grid_length : forall g p, in_grid (real_grid g) (point p) -> length p = length g.
Proof.
  intros g p I. unfold in_grid in I. assert (L : forall (A B : Type) (R0 : A -> B -> Prop) l m, Forall2 R0 l m -> length m = length l) by (intros A B R0 l m F; induction F; cbn; congruence).
  apply L in I. unfold point, real_grid in I. rewrite !map_length in I. exact I.
Qed.
Lemma forall2_cells : forall (P : Z -> Z -> Prop) g c, length c = length g -> (forall k a j, nth_error g k = Some a -> nth_error c k = Some j -> P (fa_n a) j) ->
  Forall2 (fun a i => P (ax_n a) i) (real_grid g) c.
Proof.
  intros P. induction g as [|a g IH]; intros c L H; destruct c as [|j c]; try discriminate; [constructor|]. cbn. constructor; [apply (H 0%nat a j); reflexivity|].
  apply IH; [cbn in L; lia|]. intros k b i K1 K2. apply (H (S k)); assumption.
Qed.
Lemma near_cell_slack : forall a i x, near_cell a i x <-> plane (real_axis a) i - slack (real_axis a) i <= val x <= plane (real_axis a) (i + 1) + slack (real_axis a) (i + 1).
Proof. intros a i x. unfold near_cell, slack. cbn. reflexivity. Qed.

(** ** Locating a point *)

(** Every double point of the grid is given a cell that contains it up to rounding; without the test for the boundary the cell may be one too far. *)
Theorem C82_locate_partial : forall g p, ordinary_grid g -> finite_point p -> in_grid (real_grid g) (point p) ->
  exists c, fcell_coordinates_at g p false = Some c /\ fcell_index_containing g p false = Some (cell_index_at (fsubdivisions g) c) /\
    node_of (real_grid g) c /\ in_cell_up_to_rounding (real_grid g) c (point p).
Proof.
  intros g p [Lg O] Fp I. pose proof (in_grid_length g p I) as Lp.
  destruct (lift_axes fa_cell_coordinate (fun a j x => (0 <= j <= fa_n a)%Z /\ near_cell a j x) ordinary g p) as (c & E & Lc & H); try assumption.
  { intros a x Oa Fx B. destruct (cell_coordinate_sound a x Oa Fx B) as (j & E & J & N & _). exists j. auto. }
  exists c. unfold fcell_index_containing, fcell_coordinates_at. rewrite E. split; [reflexivity|]. split; [reflexivity|]. split.
  - apply (forall2_cells (fun n i => 0 <= i <= n)%Z); [exact Lc|]. intros k a j K1 K2. destruct (nth_error p k) as [x|] eqn:K3; [apply (H k a j x K1 K2 K3)|].
    apply nth_error_None in K3. assert (k < length g)%nat by (apply nth_error_Some; congruence). lia.
  - apply axiswise_nth; [exact Lc|exact Lp|]. intros k a j x K1 K2 K3. apply near_cell_slack. apply (H k a j x K1 K2 K3).
Qed.
Print Assumptions C82_locate_partial.

(** With the test for the boundary the cell is one of the grid. *)
Theorem C82_locate_boundary : forall g p, ordinary_grid g -> well_placed_grid g -> finite_point p -> in_grid (real_grid g) (point p) ->
  exists c, fcell_coordinates_at g p true = Some c /\ cell_of (real_grid g) c /\ in_cell_up_to_rounding (real_grid g) c (point p) /\
    fcell_index_containing g p true = Some (cell_index_at (fsubdivisions g) c) /\ (0 <= cell_index_at (fsubdivisions g) c < number_of_cells (fsubdivisions g))%Z.
Proof.
  intros g p [Lg O] W Fp I. pose proof (in_grid_length g p I) as Lp.
  destruct (lift_axes fa_cell_coordinate_boundary (fun a j x => (0 <= j <= fa_n a - 1)%Z /\ near_cell a j x) (fun a => ordinary a /\ well_placed a) g p) as (c & E & Lc & H); try assumption.
  { intros a x [Oa Wa] Fx B. apply boundary_sound; assumption. }
  { clear - O W. unfold well_placed_grid in W. induction g as [|a g IH]; [constructor|]. apply Forall_cons_iff in O, W. constructor; [split; [apply O|apply W]|]. apply IH; [apply O|apply W]. }
  assert (Hc : forall k a j, nth_error g k = Some a -> nth_error c k = Some j -> (0 <= j < fa_n a)%Z).
  { intros k a j K1 K2. destruct (nth_error p k) as [x|] eqn:K3; [pose proof (proj1 (H k a j x K1 K2 K3)); lia|]. apply nth_error_None in K3. assert (k < length g)%nat by (apply nth_error_Some; congruence). lia. }
  exists c. unfold fcell_index_containing, fcell_coordinates_at. rewrite E. split; [reflexivity|]. split; [apply (forall2_cells (fun n i => 0 <= i < n)%Z); [exact Lc|exact Hc]|].
  split; [|split; [reflexivity|]].
  - apply axiswise_nth; [exact Lc|exact Lp|]. intros k a j x K1 K2 K3. apply near_cell_slack. apply (H k a j x K1 K2 K3).
  - unfold fsubdivisions, cell_index_at, number_of_cells. destruct g as [|a1 [|a2 [|a3 [|a4 g]]]]; cbn in Lg; try lia; destruct c as [|i [|j [|k [|l c]]]]; try discriminate Lc; cbn [map fold_right].
    + pose proof (Hc 0%nat a1 i eq_refl eq_refl). unfold cell_index_at1. lia.
    + pose proof (Hc 0%nat a1 i eq_refl eq_refl). pose proof (Hc 1%nat a2 j eq_refl eq_refl). unfold cell_index_at2. nia.
    + pose proof (Hc 0%nat a1 i eq_refl eq_refl). pose proof (Hc 1%nat a2 j eq_refl eq_refl). pose proof (Hc 2%nat a3 k eq_refl eq_refl). unfold cell_index_at3.
      assert (0 <= j * fa_n a1 + i < fa_n a1 * fa_n a2)%Z by nia. nia.
Qed.
Print Assumptions C82_locate_boundary.

(** A point well inside a cell is given exactly that cell, with both variants. *)
Lemma well_inside_unique : forall a i j x, ordinary a -> (0 <= i)%Z -> (0 <= j)%Z -> near_cell a j x ->
  plane (real_axis a) i + 2 * slack (real_axis a) i <= val x <= plane (real_axis a) (i + 1) - 2 * slack (real_axis a) (i + 1) -> j = i.
Proof.
  intros a i j x O Pi Pj Nj W. apply near_exact in Nj; [|exact O].
  assert (E : IZR i * (1 + 16 * u) <= exact a (val x) <= IZR (i + 1) * (1 - 16 * u)).
  { pose proof (cell_size_range a O) as C. pose proof (bpow_gt_0 radix2 (-348)). pose proof (n_real a O) as N. unfold slack in W. rewrite <- u8 in W. cbn [ax_size ax_n real_axis] in W.
    assert (Pl : forall k, plane (real_axis a) k = val (fa_anchor a) + IZR k * (val (fa_size a) / IZR (fa_n a))) by (intros k; unfold plane, real_axis; cbn; field; lra).
    rewrite !Pl in W. unfold exact. set (h := val (fa_size a) / IZR (fa_n a)) in *.
    assert (Q : (val x - val (fa_anchor a)) / h * h = val x - val (fa_anchor a)) by (field; lra).
    split; apply Rmult_le_reg_r with h; try lra; rewrite Q; lra. }
  pose proof u_pos as P. assert (U : u <= / 100) by (rewrite u_val; lra). set (c := exact a (val x)) in *.
  assert (J0 : 0 <= IZR j) by (apply IZR_le; lia). assert (I0 : 0 <= IZR i) by (apply IZR_le; lia).
  rewrite !plus_IZR in Nj, E. destruct (Ztrichotomy j i) as [C|[C|C]]; [exfalso|exact C|exfalso].
  - assert (K : IZR j + 1 <= IZR i) by (rewrite <- plus_IZR; apply IZR_le; lia). assert (K2 : (IZR j + 1) * (1 + 8 * u) <= IZR i * (1 + 8 * u)) by (apply Rmult_le_compat_r; lra).
    assert (0 < IZR i * u) by (apply Rmult_lt_0_compat; lra). lra.
  - assert (K : IZR i + 1 <= IZR j) by (rewrite <- plus_IZR; apply IZR_le; lia). assert (K2 : (IZR i + 1) * (1 - 8 * u) <= IZR j * (1 - 8 * u)) by (apply Rmult_le_compat_r; lra).
    assert (0 < (IZR i + 1) * u) by (apply Rmult_lt_0_compat; lra). lra.
Qed.
Lemma node_of_pos : forall g c, node_of g c -> forall i, In i c -> (0 <= i)%Z.
Proof. intros g c F. induction F as [|a i l m H F IH]; [intros i []|]. intros k [<-|K]; [lia|apply (IH k K)]. Qed.
Lemma cell_of_pos : forall g c, cell_of g c -> forall i, In i c -> (0 <= i)%Z.
Proof. intros g c F. induction F as [|a i l m H F IH]; [intros i []|]. intros k [<-|K]; [lia|apply (IH k K)]. Qed.
Theorem C82_locate_exact : forall g p c, ordinary_grid g -> finite_point p -> cell_of (real_grid g) c -> in_grid (real_grid g) (point p) -> well_inside (real_grid g) c (point p) ->
  fcell_index_containing g p false = Some (cell_index_at (fsubdivisions g) c) /\
  (well_placed_grid g -> fcell_index_containing g p true = Some (cell_index_at (fsubdivisions g) c)).
Proof.
  intros g p c G Fp Cc I W.
  assert (Un : forall c', (forall i, In i c' -> (0 <= i)%Z) -> in_cell_up_to_rounding (real_grid g) c' (point p) -> c' = c).
  { destruct G as [_ O]. clear I Fp. revert c p O Cc W. induction g as [|a g IH]; intros c p O Cc W c' P H.
    - inversion Cc; subst. inversion H; subst. reflexivity.
    - cbn in *. destruct p as [|x p]; [inversion W|]. cbn in *. inversion W as [|? ? i c0 ? ? W1 W2]; subst. inversion H as [|? ? j c1 ? ? H1 H2]; subst.
      inversion Cc as [|? ? ? ? C1 C2]; subst. apply Forall_cons_iff in O. f_equal.
      + apply (well_inside_unique a i j x); [apply O|cbn in C1; lia|apply P; left; reflexivity|apply near_cell_slack; exact H1|exact W1].
      + apply (IH c0 p (proj2 O) C2 W2 c1); [|exact H2]. intros k K. apply P. right. exact K. }
  split.
  - destruct (C82_locate_partial g p G Fp I) as (c' & _ & E & N & H). rewrite E. rewrite (Un c'); [reflexivity| |exact H]. apply (node_of_pos _ _ N).
  - intros Wp. destruct (C82_locate_boundary g p G Wp Fp I) as (c' & _ & N & H & E & _). rewrite E. rewrite (Un c'); [reflexivity| |exact H]. apply (cell_of_pos _ _ N).
Qed.
Print Assumptions C82_locate_exact.

(** On each axis the cells are in the order of the points. *)
Theorem C82_monotone : forall a x y i j, ordinary a -> fin x -> fin y ->
  Rabs (val x - val (fa_anchor a)) <= 2 * val (fa_size a) -> Rabs (val y - val (fa_anchor a)) <= 2 * val (fa_size a) ->
  fa_cell_coordinate a x = Some i -> fa_cell_coordinate a y = Some j -> val x <= val y -> (i <= j)%Z.
Proof.
  intros a x y i j O Fx Fy Bx By Ei Ej L. apply to_int_inv in Ei, Ej. destruct Ei as [_ ->], Ej as [_ ->]. apply Ztrunc_le. apply absolute_monotone; assumption.
Qed.
Print Assumptions C82_monotone.

(** Before the first upper bound the coordinate can already be outside: the largest double below the upper side of [-1, 1] in ten cells gets the cell 10. *)
Theorem C82_upper_side_refuted : exists g p, ordinary_grid g /\ well_placed_grid g /\ finite_point p /\ in_grid_half_open (real_grid g) (point p) /\
  fcell_index_containing g p false = Some (number_of_cells (fsubdivisions g)) /\ fcell_index_containing g p true = Some (number_of_cells (fsubdivisions g) - 1)%Z.
Proof.
  exists [FAxis (of_int (-1)) 10 (of_int 2)], [Bpred (of_int 1)].
  destruct (of_int_exact (-1)) as [F1 E1]; [lia|]. destruct (of_int_exact 2) as [F2 E2]; [lia|]. destruct (of_int_exact 1) as [F3 E3]; [lia|].
  assert (FP : fin (Bpred (of_int 1))) by (vm_compute; reflexivity).
  assert (EP : val (Bpred (of_int 1)) = 9007199254740991 / 9007199254740992).
  { unfold val. replace (Bpred (of_int 1)) with (dbl 9007199254740991 (-53)) by (apply B2SF_inj; vm_compute; reflexivity). unfold dbl.
    pose proof (binary_normalize_correct 53 1024 _ _ mode_NE 9007199254740991 (-53) false) as C. cbv zeta in C.
    assert (R0 : F2R (Float radix2 9007199254740991 (-53)) = 9007199254740991 / 9007199254740992) by (unfold F2R; cbn [Fnum Fexp]; change (bpow radix2 (-53)) with (/ 9007199254740992); lra).
    assert (R1 : round radix2 fexp64 ZnearestE (F2R (Float radix2 9007199254740991 (-53))) = F2R (Float radix2 9007199254740991 (-53))).
    { apply rnd_format. rewrite fexp64_FLT. apply generic_format_FLT. exists (Float radix2 9007199254740991 (-53)); [reflexivity|cbn; lia|cbn; lia]. }
    cbn [round_mode] in C. rewrite R1 in C. rewrite Rlt_bool_true in C; [destruct C as (C & _); rewrite C; exact R0|].
    rewrite R0, Rabs_pos_eq by lra. apply Rlt_trans with (bpow radix2 0); [cbn; lra|apply bpow_lt; lia]. }
  assert (B1 : 2 <= bpow radix2 300) by (change 2 with (bpow radix2 1); apply bpow_le; lia).
  assert (B2 : bpow radix2 (-300) <= 2) by (change 2 with (bpow radix2 1); apply bpow_le; lia).
  split; [split; [cbn; lia|]; constructor; [|constructor]|]. { unfold ordinary; cbn [fa_anchor fa_n fa_size]. rewrite E1, E2. rewrite Rabs_left by lra. repeat split; try assumption; try lia; lra. }
  split; [constructor; [|constructor]|]. { unfold well_placed; cbn [fa_anchor fa_n fa_size]. rewrite E1, E2, Rabs_left by lra. change (bpow radix2 28) with 268435456. lra. }
  split; [constructor; [exact FP|constructor]|]. split; [|split; vm_compute; reflexivity].
  constructor; [|constructor]. change (val (of_int (-1)) <= val (Bpred (of_int 1)) < val (of_int (-1)) + val (of_int 2)). rewrite E1, E2, EP. lra.
Qed.
Print Assumptions C82_upper_side_refuted.

(** ** Nodes *)

(** Every node is within five roundings of its exact position. *)
Theorem C82_node : forall a c, ordinary a -> (0 <= c <= fa_n a)%Z ->
  fin (fa_node a c) /\ Rabs (val (fa_node a c) - plane (real_axis a) c) <= 5 * bpow radix2 (-53) * (Rabs (val (fa_anchor a)) + val (fa_size a)).
Proof.
  intros a c O C. destruct (node_err a c O C) as [F B]. split; [exact F|]. pose proof (n_real a O) as N.
  assert (Pl : plane (real_axis a) c = val (fa_anchor a) + IZR c * (val (fa_size a) / IZR (fa_n a))) by (unfold plane, real_axis; cbn; field; lra).
  rewrite Pl. change (bpow radix2 (-53)) with u. apply Rabs_le. lra.
Qed.
Print Assumptions C82_node.

(** Distinct nodes of an axis are distinct and in order, unless the cells are small compared with the distance to the origin. *)
Theorem C82_nodes_increasing : forall a c d, ordinary a -> IZR (fa_n a) * (Rabs (val (fa_anchor a)) + val (fa_size a)) <= bpow radix2 49 * val (fa_size a) ->
  (0 <= c)%Z -> (c < d)%Z -> (d <= fa_n a)%Z -> val (fa_node a c) < val (fa_node a d).
Proof.
  intros a c d O W P C D. destruct (node_err a c O) as [_ B1]; [lia|]. destruct (node_err a d O) as [_ B2]; [lia|]. pose proof (n_real a O) as N.
  pose proof (cell_size_range a O) as H. pose proof (bpow_gt_0 radix2 (-348)).
  assert (K : u * (Rabs (val (fa_anchor a)) + val (fa_size a)) <= / 16 * (val (fa_size a) / IZR (fa_n a))).
  { apply Rmult_le_reg_l with (IZR (fa_n a)); [lra|]. replace (IZR (fa_n a) * (/ 16 * (val (fa_size a) / IZR (fa_n a)))) with (/ 16 * val (fa_size a)) by (field; lra).
    replace (IZR (fa_n a) * (u * (Rabs (val (fa_anchor a)) + val (fa_size a)))) with (u * (IZR (fa_n a) * (Rabs (val (fa_anchor a)) + val (fa_size a)))) by ring.
    apply Rle_trans with (u * (bpow radix2 49 * val (fa_size a))); [apply Rmult_le_compat_l; [pose proof u_pos; lra|exact W]|]. rewrite u_val. change (bpow radix2 49) with 562949953421312. lra. }
  set (h := val (fa_size a) / IZR (fa_n a)) in *. set (e := u * (Rabs (val (fa_anchor a)) + val (fa_size a))) in *.
  assert (L : IZR c + 1 <= IZR d) by (rewrite <- plus_IZR; apply IZR_le; lia). assert (L2 : (IZR c + 1) * h <= IZR d * h) by (apply Rmult_le_compat_r; lra).
  replace (5 * u * (Rabs (val (fa_anchor a)) + val (fa_size a))) with (5 * e) in B1, B2 by (unfold e; ring). lra.
Qed.
Print Assumptions C82_nodes_increasing.

(** Without this, neighbouring nodes of a grid may be the same point: a unit grid of two cells anchored at 2^54. *)
Theorem C82_nodes_coincide_refuted : exists a, ordinary a /\ fa_n a = 2%Z /\ val (fa_size a) = 1 /\ fa_node a 0 = fa_node a 1 /\ fa_node a 1 = fa_node a 2.
Proof.
  exists (FAxis (fmul (of_int (2 ^ 53)) (of_int 2)) 2 (of_int 1)). destruct (of_int_exact (2 ^ 53)) as [F1 E1]; [lia|]. destruct (of_int_exact 2) as [F2 E2]; [lia|]. destruct (of_int_exact 1) as [F3 E3]; [lia|].
  assert (G : generic_format radix2 fexp64 (val (of_int (2 ^ 53)) * val (of_int 2))).
  { rewrite E1, E2. replace (IZR (2 ^ 53) * 2) with (bpow radix2 54) by (cbn; lra). rewrite fexp64_FLT. apply generic_format_FLT_bpow; [reflexivity|lia]. }
  destruct (mul_rnd _ _ F1 F2) as [F4 E4].
  { rewrite E1, E2. rewrite Rabs_pos_eq by lra. unfold big. apply Rle_trans with (bpow radix2 54); [cbn; lra|apply bpow_le; lia]. }
  rewrite rnd_format in E4 by exact G. rewrite E1, E2 in E4.
  assert (B1 : bpow radix2 54 <= bpow radix2 300) by (apply bpow_le; lia). assert (B3 : bpow radix2 0 <= bpow radix2 300) by (apply bpow_le; lia). assert (B2 : bpow radix2 (-300) <= bpow radix2 0) by (apply bpow_le; lia).
  cbn [bpow] in B2, B3. change (bpow radix2 54) with 18014398509481984 in B1.
  split; [unfold ordinary; cbn [fa_anchor fa_n fa_size]; rewrite E3, E4; rewrite Rabs_pos_eq by lra; repeat split; try assumption; try lia; try lra|].
  split; [reflexivity|]. split; [exact E3|]. split; apply B2SF_inj; vm_compute; reflexivity.
Qed.
Print Assumptions C82_nodes_coincide_refuted.

(** ** contains *)

(** Every double point of the box is found to be in the grid ... *)
Theorem C82_contains_complete : forall g p, ordinary_grid g -> finite_point p -> in_grid (real_grid g) (point p) -> fcontains g p EPS = true.
Proof.
  intros g p [_ O] Fp I. revert p Fp I. induction g as [|a g IH]; intros p Fp I; [reflexivity|]. destruct p as [|x p]; [reflexivity|].
  unfold in_grid, real_grid, point in I. cbn [map] in I. inversion I as [|? ? ? ? I1 I2]; subst. apply Forall_cons_iff in O, Fp. unfold fcontains. cbn [map2 forallb].
  rewrite (contains_complete a x (proj1 O) (proj1 Fp) I1). apply (IH (proj2 O) p (proj2 Fp) I2).
Qed.
Print Assumptions C82_contains_complete.
(** ... and a point found to be in the grid is in the box up to a relative 2^-51. *)
Theorem C82_contains_sound : forall g p, ordinary_grid g -> finite_point p -> length p = length g -> Forall (fun x => Rabs (val x) <= bpow radix2 600) p -> fcontains g p EPS = true ->
  Forall2 (fun a x => ax_anchor a - bpow radix2 (-62) * ax_size a <= x <= ax_anchor a + (1 + bpow radix2 (-51)) * ax_size a) (real_grid g) (point p).
Proof.
  intros g p [_ O] Fp L B C. revert p Fp L B C. induction g as [|a g IH]; intros p Fp L B C; destruct p as [|x p]; try discriminate L; [constructor|].
  apply Forall_cons_iff in O, Fp, B. unfold fcontains in C. cbn [map2 forallb] in C. apply andb_prop in C. destruct C as [C1 C2]. cbn. constructor.
  - apply (contains_sound a x (proj1 O) (proj1 Fp) (proj1 B) C1).
  - apply (IH (proj2 O) p (proj2 Fp)); [cbn in L; lia|apply B|exact C2].
Qed.
Print Assumptions C82_contains_sound.
(** The grid does not always contain its own nodes: the last one of the grid of one cell with anchor 1 and size 1/10. *)
Theorem C82_contains_node_refuted : exists a, ordinary a /\ well_placed a /\ fcontains [a] [fa_node a (fa_n a)] EPS = false.
Proof.
  destruct (of_int_exact 1) as [F1 E1]; [lia|]. exists (FAxis (of_int 1) 1 (dbl 7205759403792794 (-56))).
  assert (E2 : val (dbl 7205759403792794 (-56)) = 7205759403792794 / 72057594037927936).
  { rewrite val_SF. replace (B2SF (dbl 7205759403792794 (-56))) with (SpecFloat.S754_finite false 7205759403792794 (-56)) by (vm_compute; reflexivity).
    unfold SF2R, F2R, cond_Zopp. cbn [Fnum Fexp]. change (bpow radix2 (-56)) with (/ 72057594037927936). lra. }
  assert (B1 : 1 <= bpow radix2 300) by (change 1 with (bpow radix2 0); apply bpow_le; lia).
  assert (B2 : bpow radix2 (-300) <= / 16) by (change (/ 16) with (bpow radix2 (-4)); apply bpow_le; lia).
  split; [|split].
  - unfold ordinary; cbn [fa_anchor fa_n fa_size]. rewrite E1, E2, Rabs_pos_eq by lra. repeat split; try assumption; try lia; try lra.
  - unfold well_placed; cbn [fa_anchor fa_n fa_size]. rewrite E1, E2, Rabs_pos_eq by lra. change (bpow radix2 28) with 268435456. lra.
  - vm_compute. reflexivity.
Qed.
Print Assumptions C82_contains_node_refuted.

(** ** cells_around *)

(** Away from the upper sides, cells_around returns at least one cell, only cells of the grid that contain the point up to rounding, and each once. *)
Lemma around_axes : forall g p, Forall ordinary g -> finite_point p -> below_upper_sides (real_grid g) (point p) ->
  (exists c, all_some (map2 (fun a x => to_int (ffloor (fa_absolute a x))) g p) = Some c /\ cell_of (real_grid g) c /\ in_cell_up_to_rounding (real_grid g) c (point p)) /\
  (exists ls, all_some (map2 faxis_indices g p) = Some ls /\ Forall (fun l => l <> [] /\ NoDup l) ls /\
     forall c, Forall2 (fun l i => In i l) ls c -> cell_of (real_grid g) c /\ in_cell_up_to_rounding (real_grid g) c (point p)).
Proof.
  induction g as [|a g IH]; intros p O Fp I.
  - unfold below_upper_sides in I. cbn in I. assert (p = []) by (destruct p; [reflexivity|inversion I]). subst. split.
    + exists []. repeat split; constructor.
    + exists []. split; [reflexivity|]. split; [constructor|]. intros c C. inversion C; subst. split; constructor.
  - destruct p as [|x p]; [inversion I|]. unfold below_upper_sides, real_grid, point in I. cbn [map] in I. inversion I as [|? ? ? ? I1 I2]; subst. apply Forall_cons_iff in O, Fp.
    destruct (axis_around a x (proj1 O) (proj1 Fp) I1) as ((j & E & J & N) & (l & El & L0 & Ld & Hl)). destruct (IH p (proj2 O) (proj2 Fp) I2) as ((c & Ec & Cc & Nc) & (ls & Els & F & H)). split.
    + exists (j :: c). cbn [map2 all_some]. rewrite E, Ec. split; [reflexivity|]. split; [constructor; [exact J|exact Cc]|]. cbn. constructor; [apply near_cell_slack; exact N|exact Nc].
    + exists (l :: ls). cbn [map2 all_some]. rewrite El, Els. split; [reflexivity|]. split; [constructor; [split; assumption|exact F]|].
      intros d D. inversion D as [|? i ? d' D1 D2]; subst. destruct (Hl i D1) as [A1 A2]. destruct (H d' D2) as [B1 B2]. split; [constructor; assumption|]. cbn. constructor; [apply near_cell_slack; exact A2|exact B2].
Qed.
Lemma product_nonempty : forall ls, Forall (fun l : list Z => l <> [] /\ NoDup l) ls -> exists c, In c (list_product ls).
Proof.
  intros ls F. assert (E : exists c, Forall2 (fun l i => In i l) ls c).
  { induction F as [|l ls [N _] F [c C]]; [exists []; constructor|]. destruct l as [|i l]; [congruence|]. exists (i :: c). constructor; [left; reflexivity|exact C]. }
  destruct E as [c C]. exists c. apply in_list_product. exact C.
Qed.
Lemma index_range : forall g c, (1 <= length g <= 3)%nat -> Forall ordinary g -> cell_of (real_grid g) c -> (0 <= cell_index_at (fsubdivisions g) c < number_of_cells (fsubdivisions g))%Z.
Proof.
  intros g c Lg O C. unfold cell_of, real_grid in C. unfold fsubdivisions, cell_index_at, number_of_cells.
  destruct g as [|a1 [|a2 [|a3 [|a4 g]]]]; cbn in Lg; try lia; cbn [map] in *;
    repeat match goal with H : Forall2 _ (_ :: _) _ |- _ => inversion H; clear H; subst | H : Forall2 _ [] _ |- _ => inversion H; clear H; subst end; cbn [ax_n real_axis fold_right] in *.
  - unfold cell_index_at1. lia.
  - unfold cell_index_at2. nia.
  - unfold cell_index_at3. assert (0 <= y0 * fa_n a1 + y < fa_n a1 * fa_n a2)%Z by nia. nia.
Qed.
Theorem C82_cells_around : forall g p, ordinary_grid g -> finite_point p -> below_upper_sides (real_grid g) (point p) ->
  exists l, fcells_around g p = Some l /\ l <> [] /\
    forall k, In k l -> exists c, k = cell_index_at (fsubdivisions g) c /\ cell_of (real_grid g) c /\ in_cell_up_to_rounding (real_grid g) c (point p).
Proof.
  intros g p [Lg O] Fp I. destruct (around_axes g p O Fp I) as ((c & Ec & Cc & Nc) & (ls & Els & F & H)). unfold fcells_around. cbv zeta. destruct (negb _).
  - rewrite Ec. pose proof (index_range g c Lg O Cc) as R0. destruct (Z.leb_spec 0 (cell_index_at (fsubdivisions g) c)); [|lia]. destruct (Z.leb_spec (cell_index_at (fsubdivisions g) c) (number_of_cells (fsubdivisions g) - 1)); [|lia].
    eexists. split; [reflexivity|]. split; [discriminate|]. intros k [<-|[]]. exists c. auto.
  - rewrite Els. eexists. split; [reflexivity|]. split.
    + destruct (product_nonempty ls F) as [d D]. intros K. apply in_map with (f := cell_index_at (fsubdivisions g)) in D. rewrite K in D. destruct D.
    + intros k K. apply in_map_iff in K. destruct K as (d & <- & D). apply in_list_product in D. exists d. split; [reflexivity|]. apply H. exact D.
Qed.
Print Assumptions C82_cells_around.

(** Well inside a cell, that cell only. *)
Lemma well_inside_cell : forall g p c d, Forall ordinary g -> cell_of (real_grid g) c -> well_inside (real_grid g) c (point p) -> cell_of (real_grid g) d -> in_cell_up_to_rounding (real_grid g) d (point p) -> d = c.
Proof.
  induction g as [|a g IH]; intros p c d O Cc W Cd H.
  - inversion Cc; subst. inversion Cd; subst. reflexivity.
  - cbn in *. destruct p as [|x p]; [inversion W|]. cbn in *. inversion W as [|? ? i c0 ? ? W1 W2]; subst. inversion H as [|? ? j c1 ? ? H1 H2]; subst.
    inversion Cc as [|? ? ? ? C1 C2]; subst. inversion Cd as [|? ? ? ? D1 D2]; subst. apply Forall_cons_iff in O. cbn in C1, D1. f_equal.
    + apply (well_inside_unique a i j x); [apply O|lia|lia|apply near_cell_slack; exact H1|exact W1].
    + apply (IH p c0 c1 (proj2 O) C2 W2 D2 H2).
Qed.
Theorem C82_cells_around_inside : forall g p c, ordinary_grid g -> finite_point p -> cell_of (real_grid g) c -> below_upper_sides (real_grid g) (point p) -> well_inside (real_grid g) c (point p) ->
  fcells_around g p = Some [cell_index_at (fsubdivisions g) c].
Proof.
  intros g p c [Lg O] Fp Cc I W. destruct (around_axes g p O Fp I) as ((d & Ec & Cd & Nd) & (ls & Els & F & H)). unfold fcells_around. cbv zeta. destruct (negb _).
  - rewrite Ec. rewrite (well_inside_cell g p c d O Cc W Cd Nd). pose proof (index_range g c Lg O Cc) as R0.
    destruct (Z.leb_spec 0 (cell_index_at (fsubdivisions g) c)); [|lia]. destruct (Z.leb_spec (cell_index_at (fsubdivisions g) c) (number_of_cells (fsubdivisions g) - 1)); [|lia]. reflexivity.
  - rewrite Els. assert (U : forall d, In d (list_product ls) -> d = c).
    { intros e E. apply in_list_product in E. destruct (H e E) as [A B]. apply (well_inside_cell g p c e O Cc W A B). }
    assert (N : NoDup (list_product ls)) by (apply NoDup_list_product; apply Forall_impl with (2 := F); intros l [_ L]; exact L).
    destruct (product_nonempty ls F) as [e E]. destruct (list_product ls) as [|e1 [|e2 l]]; [destruct E|rewrite (U e1) by (left; reflexivity); reflexivity|].
    exfalso. inversion N as [|? ? N1 _]; subst. apply N1. left. rewrite (U e1), (U e2) by (cbn; auto). reflexivity.
Qed.
Print Assumptions C82_cells_around_inside.

(** The tolerance of cells_around is below the spacing of the doubles: from 1/2 on, only the integers are within it. *)
Theorem C82_tolerance_refuted : forall q, fin q -> / 2 <= Rabs (val q) -> (near_integer q = true <-> exists z, val q = IZR z).
Proof. exact near_integer_spec. Qed.
Print Assumptions C82_tolerance_refuted.

(** A node of a grid, as computed by the grid, need not have two cells around it: node 3 of the unit interval in ten cells. *)
Theorem C82_node_between_two_cells_refuted : exists a c, ordinary a /\ well_placed a /\ (0 < c < fa_n a)%Z /\ fcells_around [a] [fa_node a c] = Some [c].
Proof.
  destruct (of_int_exact 1) as [F1 E1]; [lia|]. destruct (of_int_exact 0) as [F0 E0]; [lia|]. exists (FAxis (of_int 0) 10 (of_int 1)), 3%Z.
  assert (B1 : 1 <= bpow radix2 300) by (change 1 with (bpow radix2 0); apply bpow_le; lia).
  assert (B2 : bpow radix2 (-300) <= 1) by (change 1 with (bpow radix2 0); apply bpow_le; lia).
  split; [|split; [|split]].
  - unfold ordinary; cbn [fa_anchor fa_n fa_size]. rewrite E1, E0, Rabs_R0. repeat split; try assumption; try lia; try lra.
  - unfold well_placed; cbn [fa_anchor fa_n fa_size]. rewrite E1, E0, Rabs_R0. change (bpow radix2 28) with 268435456. lra.
  - cbn [fa_n]. lia.
  - vm_compute. reflexivity.
Qed.
Print Assumptions C82_node_between_two_cells_refuted.

(** On an upper side the cell of the opposite side may be returned: in the unit square in 49 x 49 cells, the point (1, 5/16) gets the cell (0, 16). *)
Theorem C82_cells_around_upper_side_refuted : exists g p c, ordinary_grid g /\ well_placed_grid g /\ finite_point p /\ in_grid (real_grid g) (point p) /\
  cell_of (real_grid g) c /\ fcells_around g p = Some [cell_index_at (fsubdivisions g) c] /\
  (exists x a i, nth_error (point p) 0 = Some x /\ nth_error (real_grid g) 0 = Some a /\ nth_error c 0 = Some i /\ plane a (i + 1) + 47 / 49 <= x).
Proof.
  destruct (of_int_exact 1) as [F1 E1]; [lia|]. destruct (of_int_exact 0) as [F0 E0]; [lia|]. exists [FAxis (of_int 0) 49 (of_int 1); FAxis (of_int 0) 49 (of_int 1)], [of_int 1; dbl 5 (-4)], [0%Z; 16%Z].
  assert (B1 : 1 <= bpow radix2 300) by (change 1 with (bpow radix2 0); apply bpow_le; lia).
  assert (B2 : bpow radix2 (-300) <= 1) by (change 1 with (bpow radix2 0); apply bpow_le; lia).
  assert (O : ordinary (FAxis (of_int 0) 49 (of_int 1))).
  { unfold ordinary; cbn [fa_anchor fa_n fa_size]. rewrite E1, E0, Rabs_R0. repeat split; try assumption; try lia; try lra. }
  assert (W : well_placed (FAxis (of_int 0) 49 (of_int 1))).
  { unfold well_placed; cbn [fa_anchor fa_n fa_size]. rewrite E1, E0, Rabs_R0. change (bpow radix2 28) with 268435456. lra. }
  assert (F5 : fin (dbl 5 (-4))) by (vm_compute; reflexivity).
  assert (E5 : val (dbl 5 (-4)) = 5 / 16).
  { rewrite val_SF. replace (B2SF (dbl 5 (-4))) with (SpecFloat.S754_finite false 5629499534213120 (-54)) by (vm_compute; reflexivity).
    unfold SF2R, F2R, cond_Zopp. cbn [Fnum Fexp]. change (bpow radix2 (-54)) with (/ 18014398509481984). lra. }
  split; [split; [cbn; lia|repeat (apply Forall_cons; [exact O|]); apply Forall_nil]|]. split; [repeat (apply Forall_cons; [exact W|]); apply Forall_nil|]. split; [repeat (apply Forall_cons; [assumption|]); apply Forall_nil|].
  split; [constructor; [|constructor; [|constructor]]|].
  { change (val (of_int 0) <= val (of_int 1) <= val (of_int 0) + val (of_int 1)). rewrite E0, E1. lra. }
  { change (val (of_int 0) <= val (dbl 5 (-4)) <= val (of_int 0) + val (of_int 1)). rewrite E0, E1, E5. lra. }
  split; [repeat constructor; cbn; lia|]. split; [vm_compute; reflexivity|].
  exists (val (of_int 1)), (real_axis (FAxis (of_int 0) 49 (of_int 1))), 0%Z. repeat split. unfold plane. cbn [ax_anchor ax_size ax_n real_axis fa_anchor fa_size fa_n]. rewrite E0, E1. change (0 + 1)%Z with 1%Z. lra.
Qed.
Print Assumptions C82_cells_around_upper_side_refuted.

(** ** Witness: the unit cube in 10 x 10 x 10 cells and the point (1/4, 1/2, 3/4). *)
Definition w_axis : faxis := FAxis (of_int 0) 10 (of_int 1).
Definition w_grid : fgrid := [w_axis; w_axis; w_axis].
Definition w_point : list double := [dbl 1 (-2); dbl 1 (-1); dbl 3 (-2)].
Lemma dyadic_val : forall x m e, B2SF x = SpecFloat.S754_finite false m e -> val x = IZR (Z.pos m) * bpow radix2 e.
Proof. intros x m e E. rewrite val_SF, E. reflexivity. Qed.
Lemma w_point_val : finite_point w_point /\ point w_point = [/ 4; / 2; 3 / 4].
Proof.
  split; [repeat constructor; vm_compute; reflexivity|]. unfold point, w_point. cbn [map].
  rewrite (dyadic_val (dbl 1 (-2)) 4503599627370496 (-54)), (dyadic_val (dbl 1 (-1)) 4503599627370496 (-53)), (dyadic_val (dbl 3 (-2)) 6755399441055744 (-53)) by (vm_compute; reflexivity).
  change (bpow radix2 (-53)) with (/ 9007199254740992). change (bpow radix2 (-54)) with (/ 18014398509481984). repeat (f_equal; try lra).
Qed.
Lemma w_axis_ok : ordinary w_axis /\ well_placed w_axis /\ real_axis w_axis = Axis 0 10 1.
Proof.
  destruct (of_int_exact 1) as [F1 E1]; [lia|]. destruct (of_int_exact 0) as [F0 E0]; [lia|].
  assert (B1 : 1 <= bpow radix2 300) by (change 1 with (bpow radix2 0); apply bpow_le; lia).
  assert (B2 : bpow radix2 (-300) <= 1) by (change 1 with (bpow radix2 0); apply bpow_le; lia).
  split; [|split].
  - unfold ordinary, w_axis; cbn [fa_anchor fa_n fa_size]. rewrite E1, E0, Rabs_R0. repeat split; try assumption; try lia; try lra.
  - unfold well_placed, w_axis; cbn [fa_anchor fa_n fa_size]. rewrite E1, E0, Rabs_R0. change (bpow radix2 28) with 268435456. lra.
  - unfold real_axis, w_axis. cbn [fa_anchor fa_n fa_size]. rewrite E1, E0. reflexivity.
Qed.
Example C82_witness : ordinary_grid w_grid /\ well_placed_grid w_grid /\ finite_point w_point /\ in_grid (real_grid w_grid) (point w_point) /\ below_upper_sides (real_grid w_grid) (point w_point) /\
  cell_of (real_grid w_grid) [2; 5; 7]%Z /\ fcell_index_containing w_grid w_point true = Some 752%Z /\ fcells_around w_grid w_point = Some [742%Z; 752%Z].
Proof.
  destruct w_axis_ok as (O & W & E). destruct w_point_val as [F P]. assert (G : real_grid w_grid = [Axis 0 10 1; Axis 0 10 1; Axis 0 10 1]) by (unfold real_grid, w_grid; cbn [map]; rewrite E; reflexivity).
  assert (B49 : 0 < bpow radix2 (-49) <= / 8) by (split; [apply bpow_gt_0|change (/ 8) with (bpow radix2 (-3)); apply bpow_le; lia]).
  rewrite G, P. split; [split; [cbn; lia|repeat (apply Forall_cons; [exact O|]); apply Forall_nil]|]. split; [repeat (apply Forall_cons; [exact W|]); apply Forall_nil|]. split; [exact F|].
  split; [repeat constructor; cbn; lra|]. split; [repeat constructor; cbn; lra|]. split; [repeat constructor; cbn; lia|]. split; vm_compute; reflexivity.
Qed.
Example C82_witness_inside : well_inside [Axis 0 10 1] [2%Z] [/ 4].
Proof.
  assert (B : 0 < bpow radix2 (-50) <= / 1024) by (split; [apply bpow_gt_0|change (/ 1024) with (bpow radix2 (-10)); apply bpow_le; lia]).
  constructor; [|constructor]. unfold plane, slack. cbn [ax_anchor ax_size ax_n]. change (2 + 1)%Z with 3%Z. lra.
Qed.
