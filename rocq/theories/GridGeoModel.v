(** Model of the geometric part of caribou's regular grids.

    Source: /repo/src/Caribou/Topology/Grid/Internal/BaseGrid.h (generic in the
    dimension) on top of the index functions of GridModel.v.

    Simplifications (whole file): scalars are exact reals, rounding of
    floating-point operations is not modelled; integer casts of values outside the
    range of [signed long long] are not modelled.  A grid of dimension D is the list of
    its D axes, a point is the list of its D coordinates, exactly like the C++ loops
    [for (axis = 0; axis < Dimension; ++axis)]. *)

From Coq Require Import ZArith List Reals.
From Flocq Require Import Core.Raux Core.Round_NE Core.Generic_fmt.
From Verif Require Import GridModel.
Import ListNotations.
Open Scope R_scope.

(** /repo/src/Caribou/Config/config.h.in:7-11: EPSILON for doubles. *)
Definition EPSILON : R := / IZR (10 ^ 19).

(** One axis of a grid: component of m_anchor_position, m_number_of_subdivisions and
    m_size (BaseGrid.h:409-418). *)
Record axis : Type := Axis { ax_anchor : R; ax_n : Z; ax_size : R }.

Definition grid : Type := list axis.

(** BaseGrid.h:102-106 (N) *)
Definition subdivisions (g : grid) : list Z := map ax_n g.

(** BaseGrid.h:109-113 (H), one component *)
Definition ax_H (a : axis) : R := ax_size a / IZR (ax_n a).

(** Component-wise combination of two vectors (Eigen array expressions). *)
Fixpoint map2 {A B C : Type} (f : A -> B -> C) (l : list A) (m : list B) : list C :=
  match l, m with
  | a :: l', b :: m' => f a b :: map2 f l' m'
  | _, _ => []
  end.

(** Dispatch on the dimension of [cell_index_at]: BaseUnidimensionalGrid.h:70-75 and
    BaseMultidimensionalGrid.h:118-136.  Other dimensions are rejected at compile time
    (BaseGrid.h:55) and get the meaningless value -1 here. *)
Definition cell_index_at (ns : list Z) (c : list Z) : Z :=
  match ns, c with
  | [nx], [i] => cell_index_at1 i
  | [nx; ny], [i; j] => cell_index_at2 nx (i, j)
  | [nx; ny; nz], [i; j; k] => cell_index_at3 nx ny (i, j, k)
  | _, _ => (-1)%Z
  end.

(** Same for [cell_coordinates_at(index)]: BaseUnidimensionalGrid.h:79-82 and
    BaseMultidimensionalGrid.h:140-158. *)
Definition cell_coordinates_of_index (ns : list Z) (index : Z) : list Z :=
  match ns with
  | [nx] => [cell_coordinates_at1 index]
  | [nx; ny] => let '(i, j) := cell_coordinates_at2 nx index in [i; j]
  | [nx; ny; nz] => let '(i, j, k) := cell_coordinates_at3 nx ny index in [i; j; k]
  | _ => []
  end.

(** BaseGrid.h:77-81 (number_of_cells) *)
Definition number_of_cells (ns : list Z) : Z := fold_right Z.mul 1%Z ns.

(** BaseGrid.h:275-280 (node at grid coordinates), one component *)
Definition ax_node (a : axis) (c : Z) : R := ax_anchor a + IZR c * ax_H a.
Definition node (g : grid) (c : list Z) : list R := map2 ax_node g c.

(** Grid.h:83-89, 209-215 (cell_at): center of the returned rectangular element, one
    component; the element's side lengths are [ax_H]. *)
Definition ax_cell_center (a : axis) (c : Z) : R :=
  ax_anchor a + IZR c * ax_H a + ax_H a / 2.

(** BaseRectangularHexahedron.h:80-82 with the identity rotation that the constructor
    (center, H) installs: world position of the local coordinate [xi], one component.  The
    same formula is used by BaseRectangularQuad. *)
Definition ax_cell_world (a : axis) (c : Z) (xi : R) : R :=
  ax_cell_center a c + xi * (ax_H a / 2).

(** Dispatch of [node_coordinates_at(index)]: BaseUnidimensionalGrid.h:53-56 and
    BaseMultidimensionalGrid.h:68-86. *)
Definition node_coordinates_of_index (ns : list Z) (index : Z) : list Z :=
  match ns with
  | [nx] => [node_coordinates_at1 index]
  | [nx; ny] => let '(i, j) := node_coordinates_at2 nx index in [i; j]
  | [nx; ny; nz] => let '(i, j, k) := node_coordinates_at3 nx ny index in [i; j; k]
  | _ => []
  end.

(** BaseUnidimensionalGrid.h:60-66 and BaseMultidimensionalGrid.h:90-114 (node(index)):
    the index is decoded exactly like in node_coordinates_at. *)
Definition node_at_index (g : grid) (index : Z) : list R :=
  node g (node_coordinates_of_index (subdivisions g) index).

(** Dispatch of [node_indices_of(cell)]: Grid.h:60-66, 112-115, 243-246. *)
Definition node_indices_of (ns : list Z) (cell : Z) : list Z :=
  match ns with
  | [nx] => node_indices_of1 cell
  | [nx; ny] => node_indices_of2 nx cell
  | [nx; ny; nz] => node_indices_of3 nx ny cell
  | _ => []
  end.

(** Quad.h (Quad<_, Linear>::canonical_nodes) and Hexahedron.h
    (Hexahedron<Linear>::canonical_nodes), used by RectangularQuad.h:66 and
    RectangularHexahedron.h:65. *)
Definition quad_corners : list (list R) := [[-1; -1]; [1; -1]; [1; 1]; [-1; 1]].
Definition hexa_corners : list (list R) :=
  [[-1; -1; -1]; [1; -1; -1]; [1; 1; -1]; [-1; 1; -1];
   [-1; -1; 1]; [1; -1; 1]; [1; 1; 1]; [-1; 1; 1]].

Fixpoint map3 {A B C D : Type} (f : A -> B -> C -> D) (l : list A) (m : list B) (n : list C) : list D :=
  match l, m, n with
  | a :: l', b :: m', c :: n' => f a b c :: map3 f l' m' n'
  | _, _, _ => []
  end.

(** nodes() of the element returned by cell_at(index): Grid.h:45-49 (a Segment), 84-95
    (RectangularQuad(center, H), RectangularQuad.h:119-130) and 210-221
    (RectangularHexahedron(center, H), RectangularHexahedron.h:149-160). *)
Definition cell_nodes (g : grid) (cell : Z) : list (list R) :=
  let at_corner xi := map3 ax_cell_world g (cell_coordinates_of_index (subdivisions g) cell) xi in
  match g with
  | [_] => [node_at_index g cell; node_at_index g (cell + 1)]
  | [_; _] => map at_corner quad_corners
  | [_; _; _] => map at_corner hexa_corners
  | _ => []
  end.

(** BaseGrid.h:265-272 and 261 (cell_coordinates_at(world)), one component.  The Eigen
    [cast<Int>()] truncates toward zero. *)
Definition ax_cell_coordinate (a : axis) (p : R) : Z :=
  Ztrunc ((p - ax_anchor a) / ax_H a).

(** BaseGrid.h:247-259 (cell_coordinates_at(world, test_for_boundary = true)), one
    component.  IN_CLOSED_INTERVAL(a,x,b) is ((x-a)*(x-b) <= 0)
    (/repo/src/Caribou/Config/macros.h.in). *)
Definition ax_cell_coordinate_boundary (a : axis) (p : R) : Z :=
  let h := ax_H a in
  let epsilon := h / 1000000 in
  let margin := h / 10 in
  let upper_bound := ax_anchor a + IZR (ax_n a) * h in
  let x := p - upper_bound in
  let p' := if Rle_dec ((x - - epsilon) * (x - epsilon)) 0 then p - margin else p in
  Ztrunc ((p' - ax_anchor a) / h).

(** BaseGrid.h:242-262 *)
Definition cell_coordinates_at (g : grid) (p : list R) (test_for_boundary : bool) : list Z :=
  map2 (if test_for_boundary then ax_cell_coordinate_boundary else ax_cell_coordinate) g p.

(** BaseGrid.h:129-132 (cell_index_containing) *)
Definition cell_index_containing (g : grid) (p : list R) (test_for_boundary : bool) : Z :=
  cell_index_at (subdivisions g) (cell_coordinates_at g p test_for_boundary).

(** BaseGrid.h:284-306 (contains) *)
Definition ax_contains (epsilon : R) (a : axis) (p : R) : bool :=
  let d := (p - ax_anchor a) / ax_size a in
  if Rlt_dec d (0 - epsilon) then false
  else if Rlt_dec (1 + epsilon) d then false
  else true.
Definition contains (g : grid) (p : list R) (epsilon : R) : bool :=
  forallb (fun b => b) (map2 (ax_contains epsilon) g p).

(** ** cells_around: BaseGrid.h:142-233 *)

(** BaseGrid.h:161 *)
Definition ax_absolute (a : axis) (p : R) : R := (p - ax_anchor a) / ax_H a.
(** BaseGrid.h:164; std::round rounds halves away from zero *)
Definition ax_rounded (a : axis) (p : R) : R := IZR (ZnearestA (ax_absolute a p)).
(** BaseGrid.h:168-176 *)
Definition ax_close (a : axis) (p : R) : bool :=
  let distance := ax_absolute a p - ax_rounded a p in
  if Rlt_dec (distance * distance) (EPSILON * EPSILON) then true else false.

(** BaseGrid.h:193-213: the candidate cell indices of one axis *)
Definition axis_indices (a : axis) (p : R) : list Z :=
  if ax_close a p then
    (let index := Zfloor (ax_rounded a p - /2) in
     if (0 <=? index)%Z then [index] else []) ++
    (let index := Zfloor (ax_rounded a p + /2) in
     if (index <=? ax_n a - 1)%Z then [index] else [])
  else
    let index := Zfloor (ax_absolute a p) in
    if ((0 <=? index) && (index <=? ax_n a - 1))%Z%bool then [index] else [].

(** BaseGrid.h:215-229: nested loops over the candidates, first axis outermost *)
Fixpoint list_product (ls : list (list Z)) : list (list Z) :=
  match ls with
  | [] => [[]]
  | l :: ls' => flat_map (fun i => map (cons i) (list_product ls')) l
  end.

Definition cells_around (g : grid) (p : list R) : list Z :=
  let ns := subdivisions g in
  if negb (existsb (fun b => b) (map2 ax_close g p)) then
    let index := cell_index_at ns (map Zfloor (map2 ax_absolute g p)) in
    if ((0 <=? index) && (index <=? number_of_cells ns - 1))%Z%bool then [index] else []
  else
    map (cell_index_at ns) (list_product (map2 axis_indices g p)).

(** ** cells_enclosing: BaseGrid.h:318-407 *)

(** BaseGrid.h:337-343: update of the lower bound by the coordinates of one cell *)
Definition lower_update (upper coord bound : Z) : Z :=
  Z.min (Z.max (Z.min coord bound) 0) upper.
(** BaseGrid.h:357-364: update of the upper bound by the coordinates of one cell *)
Definition upper_update (upper coord bound : Z) : Z :=
  Z.min (Z.max (Z.max coord bound) 0) upper.

(** BaseGrid.h:329-346 (min_between) and 349-367 (max_between) *)
Definition min_between (ns : list Z) (cells : list Z) (bound : list Z) : list Z :=
  fold_left (fun b cell =>
    map3 (fun n => lower_update (n - 1)) ns (cell_coordinates_of_index ns cell) b) cells bound.
Definition max_between (ns : list Z) (cells : list Z) (bound : list Z) : list Z :=
  fold_left (fun b cell =>
    map3 (fun n => upper_update (n - 1)) ns (cell_coordinates_of_index ns cell) b) cells bound.

(** [for (i = lo; i <= hi; ++i)] *)
Definition zrange (lo hi : Z) : list Z :=
  map (fun k => (lo + Z.of_nat k)%Z) (seq 0 (Z.to_nat (hi - lo + 1))).

(** BaseGrid.h:318-407.  [positions] is the (non-empty) pack of arguments; the outermost
    loop of lines 399-403 is the last axis. *)
Definition cells_enclosing (g : grid) (positions : list (list R)) : list Z :=
  let ns := subdivisions g in
  let lower := fold_left (fun b p => min_between ns (cells_around g p) b)
                         positions (map (fun n => (n - 1)%Z) ns) in
  let upper := fold_left (fun b p => max_between ns (cells_around g p) b)
                         positions (map (fun _ => 0%Z) ns) in
  if existsb (fun p => contains g p EPSILON) positions then
    map (fun c => cell_index_at ns (rev c))
        (list_product (rev (map2 zrange lower upper)))
  else [].
