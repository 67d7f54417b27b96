(** The geometric part of caribou's regular grids (GridGeoModel.v) with the doubles of the code: /repo/src/Caribou/Topology/Grid/Internal/BaseGrid.h.
    Every operation is that of FpModel.v, in the order of the code.  The conversion of a coordinate to an integer may be undefined ([None]). *)

From Coq Require Import ZArith List Bool.
From Verif Require Import GridModel GridGeoModel FpModel.
Import ListNotations.
Open Scope Z_scope.

(** One axis of a grid: component of m_anchor_position, m_number_of_subdivisions and m_size (BaseGrid.h:409-418). *)
Record faxis : Type := FAxis { fa_anchor : double; fa_n : Z; fa_size : double }.
Definition fgrid : Type := list faxis.
Definition fsubdivisions (g : fgrid) : list Z := map fa_n g.

(** BaseGrid.h:109-113 (H), one component *)
Definition fa_H (a : faxis) : double := fdiv (fa_size a) (of_int (fa_n a)).
(** BaseGrid.h:275-280 (node at grid coordinates), one component *)
Definition fa_node (a : faxis) (c : Z) : double := fadd (fa_anchor a) (fmul (of_int c) (fa_H a)).
(** BaseGrid.h:161, 261, 271: (coordinates - anchor) / H, one component *)
Definition fa_absolute (a : faxis) (p : double) : double := fdiv (fsub p (fa_anchor a)) (fa_H a).

(** BaseGrid.h:265-272 and 261 (cell_coordinates_at), one component *)
Definition fa_cell_coordinate (a : faxis) (p : double) : option Z := to_int (fa_absolute a p).
(** BaseGrid.h:247-259 (cell_coordinates_at with test_for_boundary), one component; IN_CLOSED_INTERVAL(a,x,b) is ((x-a)*(x-b) <= 0)
    (/repo/src/Caribou/Config/macros.h.in). *)
Definition fa_moved (a : faxis) (p : double) : double :=
  let h := fa_H a in
  let epsilon := fdiv h (of_int 1000000) in
  let margin := fdiv h (of_int 10) in
  let upper_bound := fadd (fa_anchor a) (fmul (of_int (fa_n a)) h) in
  let x := fsub p upper_bound in
  if fle (fmul (fsub x (fneg epsilon)) (fsub x epsilon)) (of_int 0) then fsub p margin else p.
Definition fa_cell_coordinate_boundary (a : faxis) (p : double) : option Z := to_int (fa_absolute a (fa_moved a p)).

(** All the components, if all are defined. *)
Fixpoint all_some {A : Type} (l : list (option A)) : option (list A) :=
  match l with
  | [] => Some []
  | Some x :: l => match all_some l with Some r => Some (x :: r) | None => None end
  | None :: _ => None
  end.
(** BaseGrid.h:242-262 *)
Definition fcell_coordinates_at (g : fgrid) (p : list double) (test_for_boundary : bool) : option (list Z) :=
  all_some (map2 (if test_for_boundary then fa_cell_coordinate_boundary else fa_cell_coordinate) g p).
(** BaseGrid.h:129-132 (cell_index_containing) *)
Definition fcell_index_containing (g : fgrid) (p : list double) (test_for_boundary : bool) : option Z :=
  match fcell_coordinates_at g p test_for_boundary with Some c => Some (cell_index_at (fsubdivisions g) c) | None => None end.

(** BaseGrid.h:284-306 (contains) *)
Definition fa_contains (epsilon : double) (a : faxis) (p : double) : bool :=
  let d := fdiv (fsub p (fa_anchor a)) (fa_size a) in
  if flt d (fsub (of_int 0) epsilon) then false
  else if flt (fadd (of_int 1) epsilon) d then false
  else true.
Definition fcontains (g : fgrid) (p : list double) (epsilon : double) : bool :=
  forallb (fun b => b) (map2 (fa_contains epsilon) g p).

(** ** cells_around: BaseGrid.h:142-233 *)

(** BaseGrid.h:164 *)
Definition fa_rounded (a : faxis) (p : double) : double := fround (fa_absolute a p).
(** BaseGrid.h:168-176; [q] is the absolute coordinate *)
Definition near_integer (q : double) : bool :=
  let distance := fsub q (fround q) in flt (fmul distance distance) (fmul EPS EPS).
Definition fa_close (a : faxis) (p : double) : bool := near_integer (fa_absolute a p).
(** BaseGrid.h:193-213: the candidate cell indices of one axis *)
Definition faxis_indices (a : faxis) (p : double) : option (list Z) :=
  let half := dbl 1 (-1) in
  if fa_close a p then
    match to_int (ffloor (fsub (fa_rounded a p) half)), to_int (ffloor (fadd (fa_rounded a p) half)) with
    | Some i, Some j => Some ((if 0 <=? i then [i] else []) ++ (if j <=? fa_n a - 1 then [j] else []))
    | _, _ => None
    end
  else
    match to_int (ffloor (fa_absolute a p)) with
    | Some i => Some (if (0 <=? i) && (i <=? fa_n a - 1) then [i] else [])
    | None => None
    end.
(** BaseGrid.h:181-187 and 215-229 *)
Definition fcells_around (g : fgrid) (p : list double) : option (list Z) :=
  let ns := fsubdivisions g in
  if negb (existsb (fun b => b) (map2 fa_close g p)) then
    match all_some (map2 (fun a x => to_int (ffloor (fa_absolute a x))) g p) with
    | Some c => let index := cell_index_at ns c in
                Some (if (0 <=? index) && (index <=? number_of_cells ns - 1) then [index] else [])
    | None => None
    end
  else
    match all_some (map2 faxis_indices g p) with
    | Some l => Some (map (cell_index_at ns) (list_product l))
    | None => None
    end.
