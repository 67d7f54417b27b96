(** C38-C40 and C73: the sparse grid, the classification with an implicit surface, the type of a point, the creation of the
    fictitious grid. *)

From Coq Require Import ZArith Reals Lra Lia Permutation Relations.
From Coq Require Import List Arith Bool.
From Verif Require Import GridModel GridSpec GridProofs GridGeoModel GridGeoSpec GridGeoProofs GridEnclosingProofs ShapeModel Sums FictModel FictSpec
  FictProofs FictProofs2 FictProofs3 FictProofs4 FictProofs5 FictProofs6 FictProofs8 FictProofs9 FictProofs10 FictProperties FictProperties2.
Import ListNotations.
Open Scope nat_scope.

(** ** C38 *)

(** The cells of the sparse grid are the kept cells, numbered without gaps; -1 for the others. *)
Theorem C38_cells : forall g classify n type threshold, valid_grid g -> (length g = 2 \/ length g = 3) ->
  let cells := subdivide_intersected_cells g classify n in
  let s := create_sparse_grid g (use_cell cells type threshold) in
  numbering (Z.to_nat (number_of_cells (subdivisions g))) (kept_cell g cells type threshold) (cell_index_in_sparse_grid s) (cell_index_in_grid s).
Proof.
  intros g classify n type threshold Hg HD cells s.
  destruct (sparse_spec g (use_cell cells type threshold) Hg HD) as (H & _). eapply numbering_ext; [|exact H].
  intros c _. apply use_cell_kept; assumption.
Qed.
Print Assumptions C38_cells.

(** Its nodes are the nodes of the kept cells, at the positions they have in the full grid. *)
Theorem C38_nodes : forall g classify n type threshold, valid_grid g -> (length g = 2 \/ length g = 3) ->
  let cells := subdivide_intersected_cells g classify n in
  let s := create_sparse_grid g (use_cell cells type threshold) in
  numbering (Z.to_nat (number_of_nodes (subdivisions g)))
    (fun m => exists c, kept_cell g cells type threshold c /\ In (Z.of_nat m) (node_indices_of (subdivisions g) (Z.of_nat c)))
    (node_index_in_sparse_grid s) (node_index_in_grid s) /\
  positions s = map (node_at_index g) (node_index_in_grid s).
Proof.
  intros g classify n type threshold Hg HD cells s.
  destruct (sparse_spec g (use_cell cells type threshold) Hg HD) as (_ & H & P & _). split; [|exact P].
  eapply numbering_ext; [|exact H]. intros m _. cbn beta. split.
  - intros (c & _ & U & I). exists c. split; [apply use_cell_kept; assumption|exact I].
  - intros (c & K & I). exists c. split; [|split; [apply use_cell_kept; assumption|exact I]].
    destruct K as [Hc _]. pose proof (C35_subdivision_is_valid g classify n Hg HD) as (_ & _ & L & _). fold cells in L. lia.
Qed.
Print Assumptions C38_nodes.

(** A sparse element has the nodes of the cell it stands for, in the order of the canonical element: same numbers once brought
    back to the full grid, same positions. *)
Theorem C38_elements : forall g classify n type threshold k c, valid_grid g -> (length g = 2 \/ length g = 3) ->
  let s := create_sparse_grid g (use_cell (subdivide_intersected_cells g classify n) type threshold) in
  length (cells_of_nodes s) = length (cell_index_in_grid s) /\
  (nth_error (cell_index_in_grid s) k = Some c ->
   exists l, nth_error (cells_of_nodes s) k = Some l /\ Forall (fun i => 0 <= i)%Z l /\
     map (fun i => nth_error (node_index_in_grid s) (Z.to_nat i)) l = map Some (node_indices_of (subdivisions g) c) /\
     map (fun i => nth_error (positions s) (Z.to_nat i)) l = map Some (cell_nodes g c)).
Proof.
  intros g classify n type threshold k c Hg HD s.
  destruct (sparse_spec g (use_cell (subdivide_intersected_cells g classify n) type threshold) Hg HD) as (NC & _ & P & L & H).
  fold s in NC, P, L, H. split; [exact L|]. intros E. destruct (H k c E) as (l & El & F). exists l. split; [exact El|].
  assert (B : below (number_of_cells (subdivisions g)) c).
  { destruct NC as (_ & NC & _). destruct (NC k c E) as (c' & -> & Hc & _). split; lia. }
  rewrite (cell_nodes_correct g c Hg B), P, map_map. clear -F. induction F as [|i m l ms [H1 H2] F (I1 & I2 & I3)]; [repeat constructor|].
  split; [constructor; assumption|]. cbn [map]. split; f_equal; try assumption.
  rewrite nth_error_map, H2. reflexivity.
Qed.
Print Assumptions C38_elements.

Lemma kept_volume_nonneg : forall g classify n type l, valid_grid g -> (length g = 2 \/ length g = 3) ->
  (forall p, In p l -> a_leaf (subdivide_intersected_cells g classify n) p) -> (0 <= kept_volume g type l)%R.
Proof.
  intros g classify n type l Hg HD H. unfold kept_volume, total. induction l as [|p l IH]; [simpl; lra|]. cbn [map fold_right].
  assert (0 <= fold_right Rplus 0 (map (fun p => match type p with Inside | Boundary => volume (element g p) | _ => 0 end) l))%R
    by (apply IH; intros q I; apply H; right; exact I).
  assert (V : (0 <= volume (element g p))%R).
  { destruct (H p (or_introl eq_refl)) as (a & La). destruct a as [ty w].
    destruct (C33_weight_is_volume_ratio g classify n p ty w Hg HD La) as (-> & W & _). apply Rmult_le_pos; [lra|].
    unfold cell_volume. destruct Hg as [_ F]. clear -F. induction F as [|a g [Hn Hs] F IH]; simpl; [lra|].
    apply Rmult_le_pos; [|exact IH]. unfold ax_H. left. apply Rdiv_lt_0_compat; [exact Hs|]. apply IZR_lt. exact Hn. }
  destruct (type p); lra.
Qed.

(** With the default threshold, the kept cells are those that are not undivided cells of type Outside. *)
Theorem C38_default_threshold : forall g classify n type c, valid_grid g -> (length g = 2 \/ length g = 3) ->
  let cells := subdivide_intersected_cells g classify n in
  c < length cells -> (kept_cell g cells type 0 c <-> ~ (a_leaf cells (c, []) /\ type (c, []) = Outside)).
Proof.
  intros g classify n type c Hg HD cells Hc. split; [intros (_ & H & _); exact H|]. intros H. split; [exact Hc|]. split; [exact H|].
  destruct (nth_error cells c) as [t|] eqn:Et; [|apply nth_error_None in Et; lia].
  assert (Lv : leaves_of_cell cells c (map (pair c) (leaf_paths [] t))).
  { split; [apply FinFun.Injective_map_NoDup; [intros x y Q; inversion Q; reflexivity|apply leaf_paths_NoDup]|].
    intros [top p]. rewrite in_map_iff. cbn [fst]. split.
    - intros (q & Q & I). inversion Q; subst. split; [|reflexivity]. apply in_leaf_paths in I. destruct I as (w & a & -> & Ea). rewrite app_nil_r.
      exists a, t. auto.
    - intros [(a & s & Es & Ea) ->]. cbn [fst snd] in *. rewrite Et in Es. inversion Es; subst s. exists p. split; [reflexivity|].
      apply in_leaf_paths. exists p, a. rewrite app_nil_r. auto. }
  exists (map (pair c) (leaf_paths [] t)). split; [exact Lv|]. rewrite Rmult_0_l. apply (kept_volume_nonneg g classify n); try assumption.
  intros p I. apply Lv in I. apply I.
Qed.
Print Assumptions C38_default_threshold.

(** With a positive threshold, every kept cell has a leaf that is Inside or Boundary. *)
Theorem C38_positive_threshold : forall g classify n type threshold c, valid_grid g -> (length g = 2 \/ length g = 3) -> (0 < threshold)%R ->
  let cells := subdivide_intersected_cells g classify n in
  kept_cell g cells type threshold c -> exists p, a_leaf cells p /\ fst p = c /\ (type p = Inside \/ type p = Boundary).
Proof.
  intros g classify n type threshold c Hg HD Ht cells (Hc & _ & l & [_ Hl] & Hv).
  assert (V : (0 < cell_volume g)%R).
  { unfold cell_volume. destruct Hg as [_ F]. clear -F. induction F as [|a g [Hn Hs] F IH]; simpl; [lra|].
    apply Rmult_lt_0_compat; [|exact IH]. unfold ax_H. apply Rdiv_lt_0_compat; [exact Hs|]. apply IZR_lt. exact Hn. }
  assert (P : (0 < kept_volume g type l)%R) by (pose proof (Rmult_lt_0_compat _ _ Ht V); lra).
  assert (E : exists p, In p l /\ (type p = Inside \/ type p = Boundary)).
  { unfold kept_volume, total in P. clear -P. induction l as [|p l IH]; [simpl in P; lra|]. cbn [map fold_right] in P.
    destruct (type p) eqn:T.
    - destruct IH as (q & I & H); [lra|]. exists q. split; [right; exact I|exact H].
    - exists p. split; [left; reflexivity|auto].
    - destruct IH as (q & I & H); [lra|]. exists q. split; [right; exact I|exact H].
    - exists p. split; [left; reflexivity|auto]. }
  destruct E as (p & I & T). apply Hl in I. exists p. tauto.
Qed.
Print Assumptions C38_positive_threshold.

(** Two cells, one Outside: one element with the four nodes of the other. *)
Definition two_cells : grid := [Axis 0 2 2; Axis 0 1 1].
Lemma two_cells_valid : valid_grid two_cells.
Proof. split; [simpl; lia|]. repeat constructor; simpl; try lia; lra. Qed.
Example C38_example :
  let s := create_sparse_grid two_cells (fun c => Nat.eqb c 1) in
  cell_index_in_grid s = [1]%Z /\ cell_index_in_sparse_grid s = [-1; 0]%Z /\
  node_index_in_grid s = [1; 2; 4; 5]%Z /\ node_index_in_sparse_grid s = [-1; 0; 1; -1; 2; 3]%Z /\ cells_of_nodes s = [[0; 1; 3; 2]]%Z.
Proof. repeat split. Qed.

(** ** C39 *)

(** The array types[3] is read and written at index 4 as soon as a corner of the grid has the value 0. *)
Theorem C39_zero_corner_refuted : forall g iso, valid_grid g -> (length g = 2 \/ length g = 3) ->
  (exists c x, cell_of g c /\ corner_of g c x /\ iso x = 0%R) -> tag_cells_from_implicit_surface g iso = UndefinedBehaviour.
Proof.
  intros g iso Hg HD (c & x & Hc & Cx & Z0). destruct (tag_cells_spec g iso Hg) as [[_ E]|[N _]]; [exact E|].
  destruct (cell_index_natural g c Hg Hc) as [B Ei]. exfalso. apply (N _ B). exists x. split; [|exact Z0].
  rewrite Ei. apply nodes_are_corners; assumption.
Qed.
Print Assumptions C39_zero_corner_refuted.
Example C39_zero_corner_example : exists c x, cell_of two_cells c /\ corner_of two_cells c x /\ (nth 0 x 0 - 1 = 0)%R.
Proof.
  exists [0; 0]%Z, [1; 0]%R. split; [repeat constructor; simpl; lia|]. split; [|simpl; lra].
  constructor; [right; unfold plane; simpl; lra|]. constructor; [left; unfold plane; simpl; lra|constructor].
Qed.

(** Otherwise the type of every cell is the one dictated by the values at its corners. *)
Theorem C39_nonzero_corners_partial : forall g iso, valid_grid g -> (length g = 2 \/ length g = 3) ->
  (forall c x, cell_of g c -> corner_of g c x -> iso x <> 0%R) ->
  exists types, tag_cells_from_implicit_surface g iso = Ok types /\ Z.of_nat (length types) = number_of_cells (subdivisions g) /\
    forall c ty, cell_of g c -> (nth_error types (Z.to_nat (cell_index_at (subdivisions g) c)) = Some ty <-> type_at_corners iso g c ty).
Proof.
  intros g iso Hg HD NZ. destruct (tag_cells_spec g iso Hg) as [[(i & Hi & x & Ix & Zx) _]|[_ E]].
  - exfalso. destruct (cell_index_back g i Hg Hi) as (c & Hc & Ei). apply (NZ c x Hc); [|exact Zx]. apply nodes_are_corners; try assumption.
    rewrite Ei. exact Ix.
  - eexists. split; [exact E|]. split; [rewrite map_length, seq_length; pose proof (number_of_cells_nonneg g Hg); lia|].
    intros c ty Hc. destruct (cell_index_natural g c Hg Hc) as [B Ei].
    rewrite nth_error_map, (nth_error_nth' _ 0) by (rewrite seq_length; exact B). rewrite seq_nth by exact B. cbn [option_map]. rewrite Nat.add_0_l, Ei.
    pose proof (corner_type_correct iso g c Hg HD Hc) as T. split.
    + intros Q. inversion Q; subst ty. exact T.
    + intros Q. f_equal. eapply type_at_corners_unique; eassumption.
Qed.
Print Assumptions C39_nonzero_corners_partial.
Example C39_nonzero_example : forall c x, cell_of two_cells c -> corner_of two_cells c x -> (nth 0 x 0 - 1 / 2)%R <> 0%R.
Proof.
  intros c x Hc Cx. inversion Hc as [|? i ? ? Hi Hc1]; subst. inversion Hc1 as [|? j ? ? Hj Hc2]; subst. inversion Hc2; subst.
  apply axiswise_inv2 in Cx. destruct Cx as (u & v & -> & Hu & _). cbn [nth]. simpl in Hi.
  assert (i = 0 \/ i = 1)%Z as [-> | ->] by lia; unfold plane in Hu; simpl in Hu; destruct Hu; lra.
Qed.

(** The sub-cells are classified correctly for every value, zero included, and are cut exactly when they are on the boundary. *)
Theorem C39_subdivision : forall D iso e, (D = 2 \/ D = 3) ->
  let corners_of_e := map (box_world e) (corners D) in
  let r := classify_iso D iso e in
  (fst r = Inside <-> forall x, In x corners_of_e -> (iso x < 0)%R) /\
  (fst r = Outside <-> forall x, In x corners_of_e -> (0 < iso x)%R) /\
  (fst r = Boundary <-> snd r = true) /\ fst r <> Undefined.
Proof.
  intros D iso e HD nodes r. destruct (classify_iso_spec D iso e) as [E1 E2]. fold nodes in E1. fold r in E1, E2.
  pose proof (corner_type_spec iso nodes) as S. rewrite <- E1 in S.
  assert (NE : exists x, In x nodes).
  { exists (box_world e (nth 0 (corners D) [])). apply in_map, nth_In. destruct HD; subst D; simpl; lia. }
  destruct NE as (x0 & I0).
  destruct S as [[T S]|[[T S]|(T & S1 & S2)]]; rewrite T in *; (split; [|split; [|split; [|discriminate]]]); split; intros H;
    try discriminate; try reflexivity; try assumption; try contradiction; try tauto;
    try (specialize (S x0 I0); specialize (H x0 I0); lra); try (apply E2; assumption).
Qed.
Print Assumptions C39_subdivision.

(** ** C40 *)

(** A point that is outside of the grid by more than 1e-19 of its size is Outside. *)
Theorem C40_outside : forall g types p k a x, valid_grid g -> length p = length g ->
  nth_error g k = Some a -> nth_error p k = Some x ->
  (x < ax_anchor a - / IZR (10 ^ 19) * ax_size a \/ ax_anchor a + ax_size a + / IZR (10 ^ 19) * ax_size a < x)%R ->
  get_type_at g types p = Ok Outside.
Proof.
  intros g types p k a x [_ F] L Ea Ex H. unfold get_type_at. replace (contains g p EPSILON) with false; [reflexivity|].
  symmetry. unfold contains. apply not_true_is_false. intros C. rewrite forallb_forall in C.
  assert (I : In (ax_contains EPSILON a x) (map2 (ax_contains EPSILON) g p)).
  { clear -L Ea Ex. revert k p L Ea Ex. induction g as [|b g IH]; intros k p L Ea Ex; [destruct k; discriminate|].
    destruct p as [|y p]; [discriminate|]. destruct k as [|k]; [inversion Ea; inversion Ex; subst; left; reflexivity|].
    right. apply (IH k); [simpl in L; lia|exact Ea|exact Ex]. }
  apply C in I. rewrite Forall_forall in F. destruct (F a (nth_error_In _ _ Ea)) as [Hn Hs].
  unfold ax_contains in I. fold EPSILON in H.
  assert (Q : (x - ax_anchor a = (x - ax_anchor a) / ax_size a * ax_size a)%R) by (field; lra).
  set (d := ((x - ax_anchor a) / ax_size a)%R) in *.
  destruct (Rlt_dec d (0 - EPSILON)) as [|N1]; [discriminate|]. destruct (Rlt_dec (1 + EPSILON) d) as [|N2]; [discriminate|].
  assert (L1 : ((0 - EPSILON) * ax_size a <= d * ax_size a)%R) by (apply Rmult_le_compat_r; lra).
  assert (L2 : (d * ax_size a <= (1 + EPSILON) * ax_size a)%R) by (apply Rmult_le_compat_r; lra). lra.
Qed.
Print Assumptions C40_outside.

(** A point that belongs to one cell only has the type of that cell; one shared by several cells is Boundary when one of them is
    Boundary or when both Inside and Outside meet there.
    Missing: points shared by cells of the same type Inside, Outside or Undefined, see below. *)
Theorem C40_type_partial : forall g types p, valid_grid g -> in_grid g p -> length types = Z.to_nat (number_of_cells (subdivisions g)) ->
  clear_of_planes g p ->
  (forall c, cell_of g c -> closed_cell g c p -> (forall c', cell_of g c' -> closed_cell g c' p -> c' = c) ->
     exists t, nth_error types (Z.to_nat (cell_index_at (subdivisions g) c)) = Some t /\ get_type_at g types p = Ok t) /\
  (forall c1 c2, cell_of g c1 -> closed_cell g c1 p -> cell_of g c2 -> closed_cell g c2 p -> c1 <> c2 ->
     type_around g types p Boundary \/ (type_around g types p Inside /\ type_around g types p Outside) -> get_type_at g types p = Ok Boundary).
Proof.
  intros g types p Hg Hp Hl Hc. destruct (get_type_at_spec g types p Hg Hp Hl Hc) as [H1 H2]. split; [exact H1|].
  intros c1 c2 A1 A2 A3 A4 Ne B. destruct (H2 c1 c2 A1 A2 A3 A4 Ne) as [[_ E]|[N _]]; [exact E|contradiction].
Qed.
Print Assumptions C40_type_partial.

(** On the points shared by several cells that all have the same type, Boundary excepted, the query throws. *)
Theorem C40_shared_face_refuted : forall g types p ty c1 c2, valid_grid g -> in_grid g p -> length types = Z.to_nat (number_of_cells (subdivisions g)) ->
  clear_of_planes g p -> cell_of g c1 -> closed_cell g c1 p -> cell_of g c2 -> closed_cell g c2 p -> c1 <> c2 ->
  ty <> Boundary -> (forall t, type_around g types p t -> t = ty) -> get_type_at g types p = Thrown.
Proof.
  intros g types p ty c1 c2 Hg Hp Hl Hc A1 A2 A3 A4 Ne NB U. destruct (get_type_at_spec g types p Hg Hp Hl Hc) as [_ H].
  destruct (H c1 c2 A1 A2 A3 A4 Ne) as [[[B|[B C]] _]|[_ E]]; [| |exact E].
  - apply U in B. congruence.
  - apply U in B. apply U in C. congruence.
Qed.
Print Assumptions C40_shared_face_refuted.

(** The middle of the face between two Inside cells. *)
Example C40_refuted_example : let p := [1; / 2]%R in
  in_grid two_cells p /\ clear_of_planes two_cells p /\ closed_cell two_cells [0; 0]%Z p /\ closed_cell two_cells [1; 0]%Z p /\
  (forall t, type_around two_cells [Inside; Inside] p t -> t = Inside).
Proof.
  intros p. split; [repeat constructor; simpl; lra|]. split; [|split; [repeat constructor; unfold plane; simpl; lra|split; [repeat constructor; unfold plane; simpl; lra|]]].
  - assert (S : forall a b : R, (/ IZR (10 ^ 19) * (a / b) <= / 2 -> forall d, / 2 <= d -> / IZR (10 ^ 19) * (a / b) <= d)%R) by (intros; lra).
    assert (Eps : (/ IZR (10 ^ 19) <= / 2)%R) by (apply Rinv_le_contravar; [lra|apply IZR_le; reflexivity || (vm_compute; discriminate)]).
    constructor; [|constructor; [|constructor]]; intros i; unfold plane; simpl ax_size; simpl ax_n; simpl ax_anchor.
    + destruct (Z.eq_dec i 1) as [->|N]; [left; lra|]. right.
      replace (1 - (0 + IZR i * 2 / 2))%R with (IZR (1 - i)) by (rewrite minus_IZR; lra).
      replace (2 / 2)%R with 1%R by lra. rewrite Rmult_1_r, <- abs_IZR. apply Rle_trans with (/ 2)%R; [exact Eps|].
      apply Rle_trans with 1%R; [lra|]. apply IZR_le. lia.
    + right. replace (1 / 1)%R with 1%R by lra. rewrite Rmult_1_r.
      apply Rle_trans with (/ 2)%R; [exact Eps|]. replace (/ 2 - (0 + IZR i * 1 / 1))%R with (/ 2 - IZR i)%R by lra.
      destruct (Z_le_gt_dec i 0) as [L|L].
      * apply IZR_le in L. rewrite Rabs_pos_eq by lra. lra.
      * assert (1 <= i)%Z as L' by lia. apply IZR_le in L'. rewrite Rabs_left by lra. lra.
  - intros t (c & Hc & _ & E). inversion Hc as [|? i ? ? Hi Hc1]; subst. inversion Hc1 as [|? j ? ? Hj Hc2]; subst. inversion Hc2; subst. simpl in Hi, Hj.
    assert (j = 0)%Z by lia. subst j. assert (i = 0 \/ i = 1)%Z as [-> | ->] by lia; vm_compute in E; inversion E; reflexivity.
Qed.
