(** The integer part of the regular grids with the machine integers of the code.

    /repo/src/Caribou/Config/config.h.in:25-26 defines INTEGER_TYPE as
    [signed long long int] and UNSIGNED_INTEGER_TYPE as [unsigned long long int];
    Internal/BaseGrid.h:37-53 uses the first for indices and grid coordinates and the
    second for the subdivisions.  The functions below are those of GridModel.v, every
    arithmetic operation now being the one the compiler selects: as soon as one operand
    is unsigned, the other one is converted and the operation is performed modulo 2^64
    ([u64]); a result stored in an index or in a grid coordinate is converted back to the
    signed type ([s64]).  Both conversions are those of a two's complement 64-bit
    [long long] (guaranteed since C++20, and what the supported compilers do before).

    Simplifications: none of the operations below is a signed operation that could
    overflow, apart from [coordinates + e1] (Eigen sum of signed vectors) and the [n0 + 1]
    of [edge]; these are modelled as exact sums (their overflow is undefined behaviour and
    would need an index equal to 2^63 - 1). *)

From Coq Require Import ZArith List.
From Verif Require Import GridModel.
Import ListNotations.
Open Scope Z_scope.

(** Conversion of an integer to [unsigned long long int]. *)
Definition u64 (z : Z) : Z := z mod 2 ^ 64.

(** Conversion of an integer to [signed long long int]. *)
Definition s64 (z : Z) : Z :=
  let w := z mod 2 ^ 64 in
  if w <? 2 ^ 63 then w else w - 2 ^ 64.

(** Conversion to [int] (FictitiousGrid.cpp:147, 239; HyperelasticForcefield.inl:434). *)
Definition s32 (z : Z) : Z :=
  let w := z mod 2 ^ 32 in
  if w <? 2 ^ 31 then w else w - 2 ^ 32.

(** The unsigned operations. *)
Definition uadd (a b : Z) : Z := u64 (u64 a + u64 b).
Definition usub (a b : Z) : Z := u64 (u64 a - u64 b).
Definition umul (a b : Z) : Z := u64 (u64 a * u64 b).
Definition udiv (a b : Z) : Z := u64 a / u64 b.
Definition umod (a b : Z) : Z := u64 a mod u64 b.
Definition ultb (a b : Z) : bool := u64 a <? u64 b.

(** BaseGrid.h:77-91 (number_of_cells, number_of_nodes) *)
Definition m_number_of_cells2 (nx ny : Z) : Z := umul nx ny.
Definition m_number_of_nodes2 (nx ny : Z) : Z := umul (uadd nx 1) (uadd ny 1).
Definition m_number_of_cells3 (nx ny nz : Z) : Z := umul (umul nx ny) nz.
Definition m_number_of_nodes3 (nx ny nz : Z) : Z :=
  umul (umul (uadd nx 1) (uadd ny 1)) (uadd nz 1).

(** BaseMultidimensionalGrid.h:47-57 (node_index_at, Dimension == 2) *)
Definition m_node_index_at2 (nx : Z) (c : coord2) : Z :=
  let '(i, j) := c in
  let nx1 := uadd nx 1 in
  s64 (uadd (umul j nx1) i).

(** BaseMultidimensionalGrid.h:68-78 (node_coordinates_at, Dimension == 2) *)
Definition m_node_coordinates_at2 (nx : Z) (index : Z) : coord2 :=
  let j := udiv index (uadd nx 1) in
  let i := usub index (umul j (uadd nx 1)) in
  (s64 i, s64 j).

(** BaseMultidimensionalGrid.h:118-129 (cell_index_at, Dimension == 2) *)
Definition m_cell_index_at2 (nx : Z) (c : coord2) : Z :=
  let '(i, j) := c in
  s64 (uadd (umul j nx) i).

(** BaseMultidimensionalGrid.h:140-150 (cell_coordinates_at, Dimension == 2) *)
Definition m_cell_coordinates_at2 (nx : Z) (index : Z) : coord2 :=
  let j := udiv index nx in
  let i := usub index (umul j nx) in
  (s64 i, s64 j).

(** Grid.h:98-109, 112-115 (Grid<2>::node_indices_of) *)
Definition m_node_indices_of2 (nx : Z) (index : Z) : list Z :=
  let c := m_cell_coordinates_at2 nx index in
  [ m_node_index_at2 nx c;
    m_node_index_at2 nx (add2 c e2_1);
    m_node_index_at2 nx (add2 (add2 c e2_1) e2_2);
    m_node_index_at2 nx (add2 c e2_2) ].

(** Grid.h:119-142 (Grid<2>::number_of_edges) *)
Definition m_number_of_edges2 (nx ny : Z) : Z :=
  let nb_edges_per_row := uadd (umul 2 nx) 1 in
  uadd (umul nb_edges_per_row ny) nx.

(** Grid.h:146-187 (Grid<2>::edge) *)
Definition m_edge2 (nx : Z) (index : Z) : Z * Z :=
  let nb_edges_per_row := uadd (umul 2 nx) 1 in
  let row := udiv index nb_edges_per_row in
  let index_on_row := umod index nb_edges_per_row in
  if ultb index_on_row nx then
    let n0 := s64 (uadd (umul row (uadd nx 1)) index_on_row) in
    (n0, n0 + 1)
  else
    let n0 := s64 (usub (uadd (umul row (uadd nx 1)) index_on_row) nx) in
    (n0, s64 (uadd n0 (uadd nx 1))).

(** BaseMultidimensionalGrid.h:47-63 (node_index_at, Dimension == 3) *)
Definition m_node_index_at3 (nx ny : Z) (c : coord3) : Z :=
  let '(i, j, k) := c in
  let nx1 := uadd nx 1 in
  let ny1 := uadd ny 1 in
  s64 (uadd (uadd (umul (umul k ny1) nx1) (umul j nx1)) i).

(** BaseMultidimensionalGrid.h:79-85 (node_coordinates_at, Dimension == 3) *)
Definition m_node_coordinates_at3 (nx ny : Z) (index : Z) : coord3 :=
  let nx1 := uadd nx 1 in
  let ny1 := uadd ny 1 in
  let k := udiv index (umul nx1 ny1) in
  let j := udiv (usub index (umul (umul k nx1) ny1)) nx1 in
  let i := usub index (uadd (umul (umul k nx1) ny1) (umul j nx1)) in
  (s64 i, s64 j, s64 k).

(** BaseMultidimensionalGrid.h:130-135 (cell_index_at, Dimension == 3) *)
Definition m_cell_index_at3 (nx ny : Z) (c : coord3) : Z :=
  let '(i, j, k) := c in
  s64 (uadd (uadd (umul (umul k ny) nx) (umul j nx)) i).

(** BaseMultidimensionalGrid.h:151-157 (cell_coordinates_at, Dimension == 3) *)
Definition m_cell_coordinates_at3 (nx ny : Z) (index : Z) : coord3 :=
  let k := udiv index (umul nx ny) in
  let j := udiv (usub index (umul (umul k nx) ny)) nx in
  let i := usub index (uadd (umul (umul k nx) ny) (umul j nx)) in
  (s64 i, s64 j, s64 k).

(** Grid.h:224-240, 243-246 (Grid<3>::node_indices_of) *)
Definition m_node_indices_of3 (nx ny : Z) (index : Z) : list Z :=
  let c := m_cell_coordinates_at3 nx ny index in
  [ m_node_index_at3 nx ny c;
    m_node_index_at3 nx ny (add3 c e3_1);
    m_node_index_at3 nx ny (add3 (add3 c e3_1) e3_2);
    m_node_index_at3 nx ny (add3 c e3_2);
    m_node_index_at3 nx ny (add3 c e3_3);
    m_node_index_at3 nx ny (add3 (add3 c e3_1) e3_3);
    m_node_index_at3 nx ny (add3 (add3 (add3 c e3_1) e3_2) e3_3);
    m_node_index_at3 nx ny (add3 (add3 c e3_2) e3_3) ].

(** Grid.h:250-275 (Grid<3>::number_of_edges) *)
Definition m_number_of_edges3 (nx ny nz : Z) : Z :=
  let nb_edges_per_row := uadd (umul 2 nx) 1 in
  let nb_edges_per_slice := uadd (umul nb_edges_per_row ny) nx in
  let nb_edges_between_slices := umul (uadd nx 1) (uadd ny 1) in
  let nb_slices := uadd nz 1 in
  uadd (umul nb_slices nb_edges_per_slice) (umul nz nb_edges_between_slices).

(** Grid.h:279-324 (Grid<3>::edge) *)
Definition m_edge3 (nx ny : Z) (index : Z) : Z * Z :=
  let nb_edges_per_row := uadd (umul 2 nx) 1 in
  let nb_edges_per_slice := uadd (umul nb_edges_per_row ny) nx in
  let nb_edges_between_slices := umul (uadd nx 1) (uadd ny 1) in
  let slice := udiv index (uadd nb_edges_per_slice nb_edges_between_slices) in
  let index_on_slice := umod index (uadd nb_edges_per_slice nb_edges_between_slices) in
  let slice_corner_node_index := umul (umul slice (uadd nx 1)) (uadd ny 1) in
  if ultb (usub nb_edges_per_slice 1) index_on_slice then
    let n0 := s64 (uadd slice_corner_node_index (usub index_on_slice nb_edges_per_slice)) in
    (n0, s64 (uadd n0 nb_edges_between_slices))
  else
    let row := udiv index_on_slice nb_edges_per_row in
    let index_on_row := umod index_on_slice nb_edges_per_row in
    if ultb index_on_row nx then
      let n0 := s64 (uadd (uadd slice_corner_node_index (umul row (uadd nx 1))) index_on_row) in
      (n0, n0 + 1)
    else
      let n0 := s64 (usub (uadd (uadd slice_corner_node_index (umul row (uadd nx 1)))
                                index_on_row) nx) in
      (n0, s64 (uadd n0 (uadd nx 1))).

(** Grid.h:328-352 (Grid<3>::number_of_faces) *)
Definition m_number_of_faces3 (nx ny nz : Z) : Z :=
  let nb_faces_per_slice := umul nx ny in
  let nb_faces_between_slices := uadd (umul (uadd nx 1) ny) (umul nx (uadd ny 1)) in
  let nb_slices := uadd nz 1 in
  uadd (umul nb_slices nb_faces_per_slice) (umul nz nb_faces_between_slices).

(** Grid.h:356-433 (Grid<3>::face); the face index is unsigned (Grid.h:199). *)
Definition m_face3 (nx ny : Z) (index : Z) : list Z :=
  let nb_faces_per_row := nx in
  let nb_faces_per_slice := umul nx ny in
  let nb_faces_between_slices := uadd (umul (uadd nx 1) ny) (umul nx (uadd ny 1)) in
  let slice := udiv index (uadd nb_faces_per_slice nb_faces_between_slices) in
  let slice_corner_node_index := umul (umul slice (uadd nx 1)) (uadd ny 1) in
  let index_on_slice := umod index (uadd nb_faces_per_slice nb_faces_between_slices) in
  if ultb index_on_slice nb_faces_per_slice then
    let row := udiv index_on_slice nb_faces_per_row in
    let index_on_row := umod index_on_slice nb_faces_per_row in
    let n0 := s64 (uadd (uadd slice_corner_node_index (umul row (uadd nx 1))) index_on_row) in
    let c := m_node_coordinates_at3 nx ny n0 in
    [ m_node_index_at3 nx ny c;
      m_node_index_at3 nx ny (add3 c e3_1);
      m_node_index_at3 nx ny (add3 (add3 c e3_1) e3_2);
      m_node_index_at3 nx ny (add3 c e3_2) ]
  else
    let index_inbetween_slices := usub index_on_slice nb_faces_per_slice in
    let nb_of_faces_between_slices_xz := umul nb_faces_per_row (uadd ny 1) in
    if ultb index_inbetween_slices nb_of_faces_between_slices_xz then
      let row := udiv index_inbetween_slices nb_faces_per_row in
      let index_on_row := umod index_inbetween_slices nb_faces_per_row in
      let n0 := s64 (uadd (uadd slice_corner_node_index (umul row (uadd nx 1))) index_on_row) in
      let c := m_node_coordinates_at3 nx ny n0 in
      [ m_node_index_at3 nx ny c;
        m_node_index_at3 nx ny (add3 c e3_1);
        m_node_index_at3 nx ny (add3 (add3 c e3_1) e3_3);
        m_node_index_at3 nx ny (add3 c e3_3) ]
    else
      let index_in_yz_faces := usub index_inbetween_slices nb_of_faces_between_slices_xz in
      let n0 := s64 (uadd slice_corner_node_index index_in_yz_faces) in
      let c := m_node_coordinates_at3 nx ny n0 in
      [ m_node_index_at3 nx ny c;
        m_node_index_at3 nx ny (add3 c e3_2);
        m_node_index_at3 nx ny (add3 (add3 c e3_2) e3_3);
        m_node_index_at3 nx ny (add3 c e3_3) ].

(** The loops [for (int i = 0; i < static_cast<int>(count); ++i)] over cells or elements
    (FictitiousGrid.cpp:145-147 and 237-239, HyperelasticForcefield.inl:433-434): the list
    of the values taken by the variable.  The bound being an [int], the variable never
    overflows. *)
Definition int_loop_visits (count : Z) : list Z :=
  map Z.of_nat (seq 0 (Z.to_nat (s32 count))).
