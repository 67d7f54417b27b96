(** C06-C09: geometry of regular grids.
    Vocabulary: GridGeoSpec.v.  Model: GridGeoModel.v. *)

From Coq Require Import ZArith List Reals Lia Lra.
From Flocq Require Import Core.Raux Core.Generic_fmt Core.Round_NE.
From Verif Require Import GridModel GridSpec GridGeoModel GridGeoSpec GridGeoProofs GridEnclosingProofs.
Import ListNotations.
Open Scope R_scope.

(** A concrete non-trivial grid used by the witnesses: anchor (1, -2), 2 x 3 cells of size
    (1/2, 2). *)
Definition sample_grid : grid := [Axis 1 2 1; Axis (-2) 3 6].
Lemma sample_grid_valid : valid_grid sample_grid.
Proof. split; [simpl; lia|]. repeat constructor; simpl; lia || lra. Qed.

(** * C06 *)

(** Nodes are at the intersections of the lattice planes. *)
Theorem C06_node_positions : forall g c, valid_grid g -> length c = length g ->
  node g c = map2 plane g c.
Proof. exact node_positions. Qed.
Print Assumptions C06_node_positions.

(** The k-th node of the element cell_at(cell) is the position of the k-th node index of the cell. *)
Theorem C06_cell_nodes : forall g cell, valid_grid g ->
  below (number_of_cells (subdivisions g)) cell ->
  cell_nodes g cell = map (node_at_index g) (node_indices_of (subdivisions g) cell).
Proof. exact cell_nodes_correct. Qed.
Print Assumptions C06_cell_nodes.

(** The closed cells cover exactly the grid box, and the interiors are disjoint. *)
Theorem C06_tiling_cover : forall g p, valid_grid g ->
  (in_grid g p <-> exists c, cell_of g c /\ closed_cell g c p).
Proof.
  intros g p Hg. split.
  - apply tiling_cover; assumption.
  - intros (c & Hc & H). apply (tiling_inside g c p Hg Hc H).
Qed.
Print Assumptions C06_tiling_cover.

Theorem C06_tiling_disjoint : forall g c c' p, valid_grid g ->
  open_cell g c p -> open_cell g c' p -> c = c'.
Proof. exact tiling_disjoint. Qed.
Print Assumptions C06_tiling_disjoint.

Example C06_witness :
  valid_grid sample_grid /\ below (number_of_cells (subdivisions sample_grid)) 3 /\
  node_indices_of (subdivisions sample_grid) 3 = [4; 5; 8; 7]%Z /\
  node_at_index sample_grid 8 = [2; 2] /\ cell_of sample_grid [1; 1]%Z /\
  open_cell sample_grid [1; 1]%Z [7 / 4; 1].
Proof.
  split; [exact sample_grid_valid|]. split; [split; reflexivity || discriminate|].
  split; [reflexivity|]. split.
  - unfold node_at_index, node. cbn. unfold ax_node, ax_H; simpl.
    apply (f_equal2 (@cons R)); [field|]. apply (f_equal2 (@cons R)); [field|reflexivity].
  - split; [repeat constructor; simpl; lia|].
    repeat constructor; unfold plane; simpl; lra.
Qed.

(** * C07 *)

(** With the boundary test enabled, on the whole closed box. *)
Theorem C07_locate_closed_box : forall g p, valid_grid g -> in_grid g p ->
  exists c, cell_of g c /\ cell_index_containing g p true = cell_index_at (subdivisions g) c /\
            closed_cell g c p.
Proof. exact index_location_true. Qed.
Print Assumptions C07_locate_closed_box.

(** By default, on the box without its upper sides; the located cell is then unique. *)
Theorem C07_locate_default : forall g p, valid_grid g -> in_grid_half_open g p ->
  exists c, cell_of g c /\ cell_index_containing g p false = cell_index_at (subdivisions g) c /\
            half_open_cell g c p /\ (forall c', half_open_cell g c' p -> c' = c).
Proof.
  intros g p Hg Hp. exists (cell_coordinates_at g p false).
  destruct (location_half_open g p Hg Hp) as [A B]. repeat split; try assumption.
  intros c' H. apply (half_open_unique g c' _ p (proj2 Hg) H B).
Qed.
Print Assumptions C07_locate_default.

(** Without the boundary test, the upper boundary point of a one-dimensional grid is located
    in a cell that does not exist (as its documentation warns). *)
Theorem C07_locate_default_upper_boundary_refuted :
  exists g p, valid_grid g /\ in_grid g p /\
    ~ below (number_of_cells (subdivisions g)) (cell_index_containing g p false).
Proof.
  exists [unit_axis 4], [4]. split; [|split].
  - split; [simpl; lia|]. constructor; [apply unit_axis_valid; lia|constructor].
  - constructor; [simpl; lra|constructor].
  - unfold cell_index_containing, cell_coordinates_at, ax_cell_coordinate. cbn [map2].
    change ((4 - ax_anchor (unit_axis 4)) / ax_H (unit_axis 4)) with (ax_absolute (unit_axis 4) 4).
    rewrite unit_axis_absolute by lia. rewrite Ztrunc_IZR. intros [_ H]. discriminate H.
Qed.
Print Assumptions C07_locate_default_upper_boundary_refuted.

(** A point outside of the grid, below its anchor by less than one cell, is located in a valid
    cell: the conversion truncates toward zero. *)
Theorem C07_outside_detected_refuted :
  exists g p, valid_grid g /\ ~ in_grid g p /\
    below (number_of_cells (subdivisions g)) (cell_index_containing g p false).
Proof.
  exists [unit_axis 4], [- (1 / 2)]. split; [|split].
  - split; [simpl; lia|]. constructor; [apply unit_axis_valid; lia|constructor].
  - intros H. inversion H as [|? ? ? ? Hx]; subst. simpl in Hx. lra.
  - unfold cell_index_containing, cell_coordinates_at, ax_cell_coordinate. cbn [map2].
    change ((- (1 / 2) - ax_anchor (unit_axis 4)) / ax_H (unit_axis 4)) with (ax_absolute (unit_axis 4) (- (1 / 2))).
    rewrite unit_axis_absolute by lia.
    replace (Ztrunc (- (1 / 2))) with 0%Z.
    + split; reflexivity || discriminate.
    + rewrite Ztrunc_ceil by lra. symmetry. apply Zceil_imp. simpl. lra.
Qed.
Print Assumptions C07_outside_detected_refuted.

Example C07_witness : valid_grid sample_grid /\ in_grid sample_grid [2; 4] /\ in_grid_half_open sample_grid [3 / 2; 0].
Proof. split; [exact sample_grid_valid|]. split; repeat constructor; simpl; lra. Qed.

(** * C08 *)

(** Inside of the grid: every cell whose closed box contains the point is returned ... *)
Theorem C08_complete_partial : forall g p c, valid_grid g -> in_grid g p ->
  cell_of g c -> closed_cell g c p -> In (cell_index_at (subdivisions g) c) (cells_around g p).
Proof. exact around_complete. Qed.
Print Assumptions C08_complete_partial.

(** ... and only cells whose box, enlarged by 1e-19 of a cell, contains the point, without
    repetition. *)
Theorem C08_sound_partial : forall g p cell, valid_grid g -> in_grid g p -> In cell (cells_around g p) ->
  exists c, cell_of g c /\ cell = cell_index_at (subdivisions g) c /\ enlarged_cell EPSILON g c p.
Proof. exact around_sound. Qed.
Print Assumptions C08_sound_partial.

Theorem C08_no_duplicates_partial : forall g p, valid_grid g -> in_grid g p -> NoDup (cells_around g p).
Proof. exact cells_around_nodup. Qed.
Print Assumptions C08_no_duplicates_partial.

(** If no coordinate is at a distance strictly between 0 and 1e-19 cell of a lattice plane,
    exactly the cells whose closed box contains the point are returned. *)
Theorem C08_exact_partial : forall g p, valid_grid g -> in_grid g p ->
  Forall2 (fun a x => forall i : Z, x = plane a i \/
             / IZR (10 ^ 19) * (ax_size a / IZR (ax_n a)) <= Rabs (x - plane a i)) g p ->
  forall cell, In cell (cells_around g p) <->
    exists c, cell_of g c /\ cell = cell_index_at (subdivisions g) c /\ closed_cell g c p.
Proof. exact around_exact. Qed.
Print Assumptions C08_exact_partial.

(** Outside of the grid the property is false: a point outside may be reported in a valid
    cell far from it, and may be reported in a cell that does not exist. *)
Theorem C08_outside_refuted :
  (exists g p cell, valid_grid g /\ ~ in_grid g p /\ In cell (cells_around g p) /\
     exists c, cell_of g c /\ cell = cell_index_at (subdivisions g) c /\ ~ closed_cell g c p) /\
  (exists g p cell, valid_grid g /\ ~ in_grid g p /\ In cell (cells_around g p) /\
     ~ below (number_of_cells (subdivisions g)) cell).
Proof.
  split.
  - exists [unit_axis 2; unit_axis 2], [5 / 2; 1 / 2], 2%Z. split; [|split; [|split]].
    + split; [simpl; lia|]. repeat (constructor; [apply unit_axis_valid; lia|]). constructor.
    + intros H. inversion H as [|? ? ? ? Hx]; subst. simpl in Hx. lra.
    + rewrite around_outside_wrap. left; reflexivity.
    + exists [0; 1]%Z. split; [repeat constructor; simpl; lia|]. split; [reflexivity|].
      intros H. inversion H as [|? ? ? ? ? ? Hx]; subst. unfold plane in Hx. simpl in Hx. lra.
  - exists [unit_axis 4], [7], 6%Z. split; [|split; [|split]].
    + split; [simpl; lia|]. constructor; [apply unit_axis_valid; lia|constructor].
    + intros H. inversion H as [|? ? ? ? Hx]; subst. simpl in Hx. lra.
    + rewrite around_outside_invalid. left; reflexivity.
    + intros [_ H]. discriminate H.
Qed.
Print Assumptions C08_outside_refuted.

(** (3/2, 0) is in the middle of the shared corner of four cells of the sample grid. *)
Example C08_witness :
  in_grid sample_grid [3 / 2; 0] /\
  closed_cell sample_grid [0; 0]%Z [3 / 2; 0] /\ closed_cell sample_grid [1; 1]%Z [3 / 2; 0] /\
  cell_of sample_grid [0; 0]%Z /\ cell_of sample_grid [1; 1]%Z /\
  Forall2 (fun a x => forall i : Z, x = plane a i \/
             / IZR (10 ^ 19) * (ax_size a / IZR (ax_n a)) <= Rabs (x - plane a i)) sample_grid [3 / 2; 0].
Proof.
  split; [repeat constructor; simpl; lra|].
  split; [repeat constructor; unfold plane; simpl; lra|].
  split; [repeat constructor; unfold plane; simpl; lra|].
  split; [repeat constructor; simpl; lia|].
  split; [repeat constructor; simpl; lia|].
  assert (HE : / IZR (10 ^ 19) < / 4) by exact EPSILON_small.
  constructor; [|constructor; [|constructor]]; intros i; unfold plane; cbn [ax_n ax_size ax_anchor].
  - destruct (Z.eq_dec i 1) as [->|N]; [left; simpl; lra|right].
    replace (3 / 2 - (1 + IZR i * 1 / 2)) with ((1 - IZR i) / 2) by field.
    assert (1 <= Rabs (1 - IZR i)).
    { rewrite <- minus_IZR, <- abs_IZR. apply IZR_le. lia. }
    unfold Rdiv at 2. rewrite Rabs_mult, (Rabs_right (/ 2)) by lra. lra.
  - destruct (Z.eq_dec i 1) as [->|N]; [left; simpl; lra|right].
    replace (0 - (-2 + IZR i * 6 / 3)) with ((1 - IZR i) * 2) by field.
    assert (1 <= Rabs (1 - IZR i)).
    { rewrite <- minus_IZR, <- abs_IZR. apply IZR_le. lia. }
    rewrite Rabs_mult, (Rabs_right 2) by lra. lra.
Qed.

(** * C09 *)

(** For points of the grid box, every grid cell meeting the bounding box is returned. *)
Theorem C09_covers_partial : forall g ps c q, valid_grid g -> ps <> [] -> Forall (in_grid g) ps ->
  cell_of g c -> closed_cell g c q -> in_bounding_box ps q ->
  In (cell_index_at (subdivisions g) c) (cells_enclosing g ps).
Proof. exact enclosing_covers. Qed.
Print Assumptions C09_covers_partial.

(** For arbitrary points, only valid cells are returned, each once. *)
Theorem C09_valid : forall g ps, valid_grid g ->
  Forall (below (number_of_cells (subdivisions g))) (cells_enclosing g ps) /\ NoDup (cells_enclosing g ps).
Proof. exact enclosing_valid. Qed.
Print Assumptions C09_valid.

(** For points of the grid box, every returned cell, enlarged by 1e-19 of a cell, meets the
    bounding box of the points, axis by axis. *)
Theorem C09_tight_partial : forall g ps cell, valid_grid g -> Forall (in_grid g) ps ->
  In cell (cells_enclosing g ps) ->
  exists c, cell_of g c /\ cell = cell_index_at (subdivisions g) c /\
    forall k a i, nth_error g k = Some a -> nth_error c k = Some i ->
      (exists p y, In p ps /\ nth_error p k = Some y /\
         y < plane a (i + 1) + EPSILON * (ax_size a / IZR (ax_n a))) /\
      (exists p y, In p ps /\ nth_error p k = Some y /\
         plane a i - EPSILON * (ax_size a / IZR (ax_n a)) < y).
Proof. exact enclosing_tight. Qed.
Print Assumptions C09_tight_partial.

(** As soon as one of the points is outside of the grid, the property is false: the result
    does not extend to the boundary of the grid. *)
Theorem C09_clipped_refuted :
  exists g ps c q, valid_grid g /\ (exists p, In p ps /\ in_grid g p) /\
    cell_of g c /\ closed_cell g c q /\ in_bounding_box ps q /\
    ~ In (cell_index_at (subdivisions g) c) (cells_enclosing g ps).
Proof.
  exists [unit_axis 4], [[3 / 2]; [21 / 2]], [3]%Z, [7 / 2]. split; [|split; [|split; [|split; [|split]]]].
  - split; [simpl; lia|]. constructor; [apply unit_axis_valid; lia|constructor].
  - exists [3 / 2]. split; [left; reflexivity|]. constructor; [simpl; lra|constructor].
  - repeat constructor; simpl; lia.
  - repeat constructor; unfold plane; simpl; lra.
  - intros [|[|k]] x E; simpl in E; try discriminate. injection E; intros; subst x. split.
    + exists [3 / 2], (3 / 2). split; [left; reflexivity|]. split; [reflexivity|lra].
    + exists [21 / 2], (21 / 2). split; [right; left; reflexivity|]. split; [reflexivity|lra].
  - rewrite enclosing_outside. simpl. intros [H|[]]. discriminate H.
Qed.
Print Assumptions C09_clipped_refuted.

Example C09_witness :
  Forall (in_grid sample_grid) [[1; -2]; [2; 4]] /\ closed_cell sample_grid [1; 1]%Z [7 / 4; 1] /\
  in_bounding_box [[1; -2]; [2; 4]] [7 / 4; 1].
Proof.
  split; [repeat constructor; simpl; lra|].
  split; [repeat constructor; unfold plane; simpl; lra|].
  intros [|[|[|k]]] x E; simpl in E; try discriminate; injection E; intros; subst x; split.
  - exists [1; -2], 1. split; [left; reflexivity|]. split; [reflexivity|lra].
  - exists [2; 4], 2. split; [right; left; reflexivity|]. split; [reflexivity|lra].
  - exists [1; -2], (-2). split; [left; reflexivity|]. split; [reflexivity|lra].
  - exists [2; 4], 4. split; [right; left; reflexivity|]. split; [reflexivity|lra].
Qed.
