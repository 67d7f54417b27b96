(** Specification vocabulary for the geometry of regular grids.  Nothing here refers to the
    code's functions: a grid is described by, for each axis, an anchor coordinate, a number
    of subdivisions and a total size. *)

From Coq Require Import ZArith List Reals.
From Verif Require Import GridGeoModel.
Import ListNotations.
Open Scope R_scope.

(** Positive number of subdivisions and positive size on each axis; dimension 1, 2 or 3. *)
Definition valid_axis (a : axis) : Prop := (0 < ax_n a)%Z /\ 0 < ax_size a.
Definition valid_grid (g : grid) : Prop :=
  (1 <= length g <= 3)%nat /\ Forall valid_axis g.

(** Coordinate of the [i]-th of the [n+1] equidistant lattice planes of an axis. *)
Definition plane (a : axis) (i : Z) : R := ax_anchor a + IZR i * ax_size a / IZR (ax_n a).

(** [P] holds axis by axis between a grid, integer coordinates and a point. *)
Inductive axiswise (P : axis -> Z -> R -> Prop) : grid -> list Z -> list R -> Prop :=
| axiswise_nil : axiswise P [] [] []
| axiswise_cons : forall a g i c x p,
    P a i x -> axiswise P g c p -> axiswise P (a :: g) (i :: c) (x :: p).

(** [c] are the coordinates of a cell of the grid. *)
Definition cell_of (g : grid) (c : list Z) : Prop :=
  Forall2 (fun a i => (0 <= i < ax_n a)%Z) g c.
(** [n] are the coordinates of a node of the grid. *)
Definition node_of (g : grid) (c : list Z) : Prop :=
  Forall2 (fun a i => (0 <= i <= ax_n a)%Z) g c.

(** The closed box, the half-open box and the open box of the cell [c]. *)
Definition closed_cell : grid -> list Z -> list R -> Prop :=
  axiswise (fun a i x => plane a i <= x <= plane a (i + 1)).
Definition half_open_cell : grid -> list Z -> list R -> Prop :=
  axiswise (fun a i x => plane a i <= x < plane a (i + 1)).
Definition open_cell : grid -> list Z -> list R -> Prop :=
  axiswise (fun a i x => plane a i < x < plane a (i + 1)).

(** The closed box enlarged by the fraction [eps] of a cell on every side. *)
Definition enlarged_cell (eps : R) : grid -> list Z -> list R -> Prop :=
  axiswise (fun a i x => plane a i - eps * (ax_size a / IZR (ax_n a)) < x
                         < plane a (i + 1) + eps * (ax_size a / IZR (ax_n a))).

(** The point lies in the closed box of the whole grid / in it minus its upper sides. *)
Definition in_grid : grid -> list R -> Prop :=
  Forall2 (fun a x => ax_anchor a <= x <= ax_anchor a + ax_size a).
Definition in_grid_half_open : grid -> list R -> Prop :=
  Forall2 (fun a x => ax_anchor a <= x < ax_anchor a + ax_size a).

(** Bounding box of a list of points: [q] is between two of them on each axis. *)
Definition in_bounding_box (points : list (list R)) (q : list R) : Prop :=
  forall k x, nth_error q k = Some x ->
    (exists p y, In p points /\ nth_error p k = Some y /\ y <= x) /\
    (exists p y, In p points /\ nth_error p k = Some y /\ x <= y).
