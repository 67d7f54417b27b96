(** Model of the integer (topological) part of caribou's regular grids.

    Sources (all under /repo/src/Caribou/Topology/Grid/):
      Internal/BaseGrid.h, Internal/BaseUnidimensionalGrid.h,
      Internal/BaseMultidimensionalGrid.h, Grid.h.

    Simplifications (whole file): indices are unbounded [Z].  The C++ mixes
    [signed long long] indices with [unsigned long long] subdivisions, so that the
    divisions below are unsigned divisions; for the non-negative operands that
    valid grids produce they coincide with [Z.div] and [Z.modulo]. *)

From Coq Require Import ZArith List.
Import ListNotations.
Open Scope Z_scope.

(** Grid coordinates: BaseGrid.h:52 ([GridCoordinates = VecInt]). *)
Definition coord2 : Set := (Z * Z)%type.
Definition coord3 : Set := (Z * Z * Z)%type.

(** Sum of grid coordinates (Eigen vector sum used in Grid.h:105-107, 232-238). *)
Definition add2 (a b : coord2) : coord2 :=
  let '(i, j) := a in let '(i', j') := b in (i + i', j + j').
Definition add3 (a b : coord3) : coord3 :=
  let '(i, j, k) := a in let '(i', j', k') := b in (i + i', j + j', k + k').

(** The unit vectors [e1, e2, e3]: Grid.h:100-101 and Grid.h:226-228. *)
Definition e2_1 : coord2 := (1, 0).
Definition e2_2 : coord2 := (0, 1).
Definition e3_1 : coord3 := (1, 0, 0).
Definition e3_2 : coord3 := (0, 1, 0).
Definition e3_3 : coord3 := (0, 0, 1).

(** ** Counting: BaseGrid.h:77-91 (number_of_cells, number_of_nodes) *)
Definition number_of_cells1 (nx : Z) : Z := nx.
Definition number_of_nodes1 (nx : Z) : Z := nx + 1.
Definition number_of_cells2 (nx ny : Z) : Z := nx * ny.
Definition number_of_nodes2 (nx ny : Z) : Z := (nx + 1) * (ny + 1).
Definition number_of_cells3 (nx ny nz : Z) : Z := nx * ny * nz.
Definition number_of_nodes3 (nx ny nz : Z) : Z := (nx + 1) * (ny + 1) * (nz + 1).

(** ** One dimension: BaseUnidimensionalGrid.h:45-82 *)

(** BaseUnidimensionalGrid.h:46-49 (node_index_at) *)
Definition node_index_at1 (c : Z) : Z := c.
(** BaseUnidimensionalGrid.h:53-56 (node_coordinates_at) *)
Definition node_coordinates_at1 (index : Z) : Z := index.
(** BaseUnidimensionalGrid.h:70-75 (cell_index_at) *)
Definition cell_index_at1 (c : Z) : Z := c.
(** BaseUnidimensionalGrid.h:79-82 (cell_coordinates_at) *)
Definition cell_coordinates_at1 (index : Z) : Z := index.
(** Grid.h:60-66 (Grid<1>::node_indices_of) *)
Definition node_indices_of1 (index : Z) : list Z := [index; index + 1].

(** ** Two dimensions *)

(** BaseMultidimensionalGrid.h:47-57 (node_index_at, Dimension == 2) *)
Definition node_index_at2 (nx : Z) (c : coord2) : Z :=
  let '(i, j) := c in
  let nx1 := nx + 1 in
  j * nx1 + i.

(** BaseMultidimensionalGrid.h:68-78 (node_coordinates_at, Dimension == 2) *)
Definition node_coordinates_at2 (nx : Z) (index : Z) : coord2 :=
  let j := index / (nx + 1) in
  let i := index - (j * (nx + 1)) in
  (i, j).

(** BaseMultidimensionalGrid.h:118-129 (cell_index_at, Dimension == 2) *)
Definition cell_index_at2 (nx : Z) (c : coord2) : Z :=
  let '(i, j) := c in
  j * nx + i.

(** BaseMultidimensionalGrid.h:140-150 (cell_coordinates_at, Dimension == 2) *)
Definition cell_coordinates_at2 (nx : Z) (index : Z) : coord2 :=
  let j := index / nx in
  let i := index - (j * nx) in
  (i, j).

(** Grid.h:98-109 (Grid<2>::node_indices_of from grid coordinates) *)
Definition node_indices_of_coords2 (nx : Z) (c : coord2) : list Z :=
  [ node_index_at2 nx c;
    node_index_at2 nx (add2 c e2_1);
    node_index_at2 nx (add2 (add2 c e2_1) e2_2);
    node_index_at2 nx (add2 c e2_2) ].

(** Grid.h:112-115 (Grid<2>::node_indices_of from a cell index) *)
Definition node_indices_of2 (nx : Z) (index : Z) : list Z :=
  node_indices_of_coords2 nx (cell_coordinates_at2 nx index).

(** Grid.h:119-142 (Grid<2>::number_of_edges) *)
Definition number_of_edges2 (nx ny : Z) : Z :=
  let nb_edges_per_row := 2 * nx + 1 in
  nb_edges_per_row * ny + nx.

(** Grid.h:146-187 (Grid<2>::edge) *)
Definition edge2 (nx : Z) (index : Z) : Z * Z :=
  let nb_edges_per_row := 2 * nx + 1 in
  let row := index / nb_edges_per_row in
  let index_on_row := index mod nb_edges_per_row in
  if index_on_row <? nx then
    let n0 := row * (nx + 1) + index_on_row in
    (n0, n0 + 1)
  else
    let n0 := row * (nx + 1) + index_on_row - nx in
    (n0, n0 + (nx + 1)).

(** ** Three dimensions *)

(** BaseMultidimensionalGrid.h:47-63 (node_index_at, Dimension == 3) *)
Definition node_index_at3 (nx ny : Z) (c : coord3) : Z :=
  let '(i, j, k) := c in
  let nx1 := nx + 1 in
  let ny1 := ny + 1 in
  k * ny1 * nx1 + j * nx1 + i.

(** BaseMultidimensionalGrid.h:79-85 (node_coordinates_at, Dimension == 3) *)
Definition node_coordinates_at3 (nx ny : Z) (index : Z) : coord3 :=
  let k := index / ((nx + 1) * (ny + 1)) in
  let j := (index - (k * (nx + 1) * (ny + 1))) / (nx + 1) in
  let i := index - ((k * (nx + 1) * (ny + 1)) + (j * (nx + 1))) in
  (i, j, k).

(** BaseMultidimensionalGrid.h:130-135 (cell_index_at, Dimension == 3) *)
Definition cell_index_at3 (nx ny : Z) (c : coord3) : Z :=
  let '(i, j, k) := c in
  k * ny * nx + j * nx + i.

(** BaseMultidimensionalGrid.h:151-157 (cell_coordinates_at, Dimension == 3) *)
Definition cell_coordinates_at3 (nx ny : Z) (index : Z) : coord3 :=
  let k := index / (nx * ny) in
  let j := (index - (k * nx * ny)) / nx in
  let i := index - ((k * nx * ny) + (j * nx)) in
  (i, j, k).

(** Grid.h:224-240 (Grid<3>::node_indices_of from grid coordinates) *)
Definition node_indices_of_coords3 (nx ny : Z) (c : coord3) : list Z :=
  [ node_index_at3 nx ny c;
    node_index_at3 nx ny (add3 c e3_1);
    node_index_at3 nx ny (add3 (add3 c e3_1) e3_2);
    node_index_at3 nx ny (add3 c e3_2);
    node_index_at3 nx ny (add3 c e3_3);
    node_index_at3 nx ny (add3 (add3 c e3_1) e3_3);
    node_index_at3 nx ny (add3 (add3 (add3 c e3_1) e3_2) e3_3);
    node_index_at3 nx ny (add3 (add3 c e3_2) e3_3) ].

(** Grid.h:243-246 (Grid<3>::node_indices_of from a cell index) *)
Definition node_indices_of3 (nx ny : Z) (index : Z) : list Z :=
  node_indices_of_coords3 nx ny (cell_coordinates_at3 nx ny index).

(** Grid.h:250-275 (Grid<3>::number_of_edges) *)
Definition number_of_edges3 (nx ny nz : Z) : Z :=
  let nb_edges_per_row := 2 * nx + 1 in
  let nb_edges_per_slice := nb_edges_per_row * ny + nx in
  let nb_edges_between_slices := (nx + 1) * (ny + 1) in
  let nb_slices := nz + 1 in
  nb_slices * nb_edges_per_slice + nz * nb_edges_between_slices.

(** Grid.h:279-324 (Grid<3>::edge) *)
Definition edge3 (nx ny : Z) (index : Z) : Z * Z :=
  let nb_edges_per_row := 2 * nx + 1 in
  let nb_edges_per_slice := nb_edges_per_row * ny + nx in
  let nb_edges_between_slices := (nx + 1) * (ny + 1) in
  let slice := index / (nb_edges_per_slice + nb_edges_between_slices) in
  let index_on_slice := index mod (nb_edges_per_slice + nb_edges_between_slices) in
  let slice_corner_node_index := slice * (nx + 1) * (ny + 1) in
  if nb_edges_per_slice - 1 <? index_on_slice then
    let n0 := slice_corner_node_index + (index_on_slice - nb_edges_per_slice) in
    (n0, n0 + nb_edges_between_slices)
  else
    let row := index_on_slice / nb_edges_per_row in
    let index_on_row := index_on_slice mod nb_edges_per_row in
    if index_on_row <? nx then
      let n0 := slice_corner_node_index + row * (nx + 1) + index_on_row in
      (n0, n0 + 1)
    else
      let n0 := slice_corner_node_index + row * (nx + 1) + index_on_row - nx in
      (n0, n0 + (nx + 1)).

(** Grid.h:328-352 (Grid<3>::number_of_faces) *)
Definition number_of_faces3 (nx ny nz : Z) : Z :=
  let nb_faces_per_slice := nx * ny in
  let nb_faces_between_slices := (nx + 1) * ny + nx * (ny + 1) in
  let nb_slices := nz + 1 in
  nb_slices * nb_faces_per_slice + nz * nb_faces_between_slices.

(** Grid.h:356-433 (Grid<3>::face) *)
Definition face3 (nx ny : Z) (index : Z) : list Z :=
  let nb_faces_per_row := nx in
  let nb_faces_per_slice := nx * ny in
  let nb_faces_between_slices := (nx + 1) * ny + nx * (ny + 1) in
  let slice := index / (nb_faces_per_slice + nb_faces_between_slices) in
  let slice_corner_node_index := slice * (nx + 1) * (ny + 1) in
  let index_on_slice := index mod (nb_faces_per_slice + nb_faces_between_slices) in
  if index_on_slice <? nb_faces_per_slice then
    let row := index_on_slice / nb_faces_per_row in
    let index_on_row := index_on_slice mod nb_faces_per_row in
    let n0 := slice_corner_node_index + row * (nx + 1) + index_on_row in
    let c := node_coordinates_at3 nx ny n0 in
    [ node_index_at3 nx ny c;
      node_index_at3 nx ny (add3 c e3_1);
      node_index_at3 nx ny (add3 (add3 c e3_1) e3_2);
      node_index_at3 nx ny (add3 c e3_2) ]
  else
    let index_inbetween_slices := index_on_slice - nb_faces_per_slice in
    let nb_of_faces_between_slices_xz := nb_faces_per_row * (ny + 1) in
    if index_inbetween_slices <? nb_of_faces_between_slices_xz then
      let row := index_inbetween_slices / nb_faces_per_row in
      let index_on_row := index_inbetween_slices mod nb_faces_per_row in
      let n0 := slice_corner_node_index + row * (nx + 1) + index_on_row in
      let c := node_coordinates_at3 nx ny n0 in
      [ node_index_at3 nx ny c;
        node_index_at3 nx ny (add3 c e3_1);
        node_index_at3 nx ny (add3 (add3 c e3_1) e3_3);
        node_index_at3 nx ny (add3 c e3_3) ]
    else
      let index_in_yz_faces := index_inbetween_slices - nb_of_faces_between_slices_xz in
      let n0 := slice_corner_node_index + index_in_yz_faces in
      let c := node_coordinates_at3 nx ny n0 in
      [ node_index_at3 nx ny c;
        node_index_at3 nx ny (add3 c e3_2);
        node_index_at3 nx ny (add3 (add3 c e3_2) e3_3);
        node_index_at3 nx ny (add3 c e3_3) ].
