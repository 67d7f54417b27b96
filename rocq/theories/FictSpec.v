(** Specification vocabulary for the fictitious grid (C33-C40): geometry of cells and sub-cells, pointers to leaves. *)

From Coq Require Import ZArith List Arith Reals Relations.
From Verif Require Import GridGeoModel GridGeoSpec FictModel.
Import ListNotations.
Open Scope R_scope.

(** Extent of an axis-aligned box along an axis. *)
Definition lower (e : box) (a : nat) : R := nth a (center e) 0 - nth a (sides e) 0 / 2.
Definition upper (e : box) (a : nat) : R := nth a (center e) 0 + nth a (sides e) 0 / 2.

(** The face of [e] in the given direction of the axis and the opposite face of [f] are in the same plane and have a part
    with a non-empty interior in common. *)
Definition face_to_face (D axis : nat) (direction : Z) (e f : box) : Prop :=
  (if (direction <? 0)%Z then lower e axis = upper f axis else upper e axis = lower f axis) /\
  (forall a, (a < D)%nat -> a <> axis -> lower e a < upper f a /\ lower f a < upper e a).

(** The element of the sub-cell at the end of a path (deepest index first). *)
Fixpoint sub_box (D : nat) (e : box) (p : list nat) : box :=
  match p with
  | [] => e
  | i :: up => nth i (get_subcells_elements D (sub_box D e up)) (unit_box D)
  end.
Definition element (g : grid) (p : ptr) : box :=
  sub_box (length g) (cell_box g (cell_coordinates_of_index (subdivisions g) (Z.of_nat (fst p)))) (snd p).

(** Every cell is a leaf or has 2^D children. *)
Inductive full {A : Type} (D : nat) : tree A -> Prop :=
| full_leaf : forall a, full D (Leaf a)
| full_node : forall childs, length childs = (2 ^ D)%nat -> Forall (full D) childs -> full D (Node childs).
(** The grid's array of cells: one tree for each cell. *)
Definition valid_cells {A : Type} (g : grid) (cells : list (tree A)) : Prop :=
  valid_grid g /\ (length g = 2 \/ length g = 3)%nat /\
  Z.of_nat (length cells) = number_of_cells (subdivisions g) /\ Forall (full (length g)) cells.

(** [p] points to a leaf that holds [a]. *)
Definition leaf {A : Type} (cells : list (tree A)) (p : ptr) (a : A) : Prop :=
  exists t, nth_error cells (fst p) = Some t /\ subtree t (snd p) = Some (Leaf a).
Definition a_leaf {A : Type} (cells : list (tree A)) (p : ptr) : Prop := exists a, leaf cells p a.

(** The leaves face each other through some face. *)
Definition neighbours {A : Type} (g : grid) (cells : list (tree A)) (p q : ptr) : Prop :=
  a_leaf cells p /\ a_leaf cells q /\
  exists axis dir, (axis < length g)%nat /\ (dir = 1 \/ dir = -1)%Z /\
    face_to_face (length g) axis dir (element g p) (element g q).
(** One goes from [p] to [q] through faces without leaving the type of [p]. *)
Definition same_region {A : Type} (g : grid) (cells : list (tree A)) (type : ptr -> cell_type) : ptr -> ptr -> Prop :=
  clos_refl_trans ptr (fun p q => neighbours g cells p q /\ type p = type q).

(** The face of the element in the given direction lies on the border of the grid. *)
Definition axis0 : GridGeoModel.axis := Axis 0 0 0.
Definition on_border (g : grid) (axis : nat) (dir : Z) (p : ptr) : Prop :=
  if (dir <? 0)%Z then lower (element g p) axis = ax_anchor (nth axis g axis0)
  else upper (element g p) axis = ax_anchor (nth axis g axis0) + ax_size (nth axis g axis0).
Definition at_border (g : grid) (p : ptr) : Prop :=
  exists axis dir, (axis < length g)%nat /\ (dir = 1 \/ dir = -1)%Z /\ on_border g axis dir p.

(** Volume of a box; volume of a cell of the grid. *)
Definition volume (e : box) : R := fold_right Rmult 1 (sides e).
Definition cell_volume (g : grid) : R := fold_right Rmult 1 (map ax_H g).
Definition total (l : list R) : R := fold_right Rplus 0 l.
(** [l] lists the leaves of the cell number [c], each once. *)
Definition leaves_of_cell {A : Type} (cells : list (tree A)) (c : nat) (l : list ptr) : Prop :=
  NoDup l /\ forall p, In p l <-> a_leaf cells p /\ fst p = c.
(** The volume kept in a cell: that of the leaves inside or on the boundary. *)
Definition kept_volume (g : grid) (type : ptr -> cell_type) (l : list ptr) : R :=
  total (map (fun p => match type p with Inside | Boundary => volume (element g p) | _ => 0 end) l).

(** The point is in the interior of the box. *)
Definition inside_box (D : nat) (e : box) (x : list R) : Prop := forall a, (a < D)%nat -> lower e a < nth a x 0 < upper e a.
(** What the points that represent the sub-cell [p] weigh together; [owners] tells for each point what it represents. *)
Definition owned (owners : list (list nat)) (l : list (list R * R)) (p : list nat) : R :=
  total (map (fun o => if list_eq_dec Nat.eq_dec (fst o) p then snd (snd o) else 0) (combine owners l)).
(** The quadrature points [l] of the cell [t], in the coordinates of the reference element [-1,1]^D: each one lies inside the
    (sub-)cell it represents: a leaf, or else a sub-cell of a cell of the requested level; the points of a sub-cell weigh 2^D
    times its part of the volume that is kept, and each leaf is in exactly one of the sub-cells that are represented. *)
Definition fine_enough (level : nat) (p : list nat) (t : tree R) : Prop :=
  (is_leaf t = true /\ (length p <= level)%nat) \/ length p = S level.
Definition represents (D level : nat) (kept : list nat -> tree R -> R) (t : tree R) (l : list (list R * R)) (owners : list (list nat)) : Prop :=
  length owners = length l /\
  (forall k p x, nth_error owners k = Some p -> nth_error l k = Some x -> inside_box D (sub_box D (unit_box D) p) (fst x)) /\
  (forall p, In p owners -> exists s, subtree t p = Some s /\ fine_enough level p s /\ owned owners l p = 2 ^ D * kept p s) /\
  (forall p a, subtree t p = Some (Leaf a) -> exists q, (In q owners /\ exists u, p = u ++ q) /\ forall q', In q' owners /\ (exists u, p = u ++ q') -> q' = q).
(** The number of levels below a cell. *)
Definition depth_at_most {A : Type} (n : nat) (t : tree A) : Prop := forall p a, subtree t p = Some (Leaf a) -> (length p <= n)%nat.

(** [sparse_to_full] numbers the things in use among 0 ... n-1 and [full_to_sparse] is its inverse, -1 elsewhere. *)
Definition numbering (n : nat) (in_use : nat -> Prop) (full_to_sparse sparse_to_full : list Z) : Prop :=
  length full_to_sparse = n /\
  (forall k i, nth_error sparse_to_full k = Some i ->
     exists c, i = Z.of_nat c /\ (c < n)%nat /\ in_use c /\ nth_error full_to_sparse c = Some (Z.of_nat k)) /\
  (forall c, (c < n)%nat -> in_use c -> exists k, nth_error sparse_to_full k = Some (Z.of_nat c)) /\
  (forall c, (c < n)%nat -> ~ in_use c -> nth_error full_to_sparse c = Some (-1)%Z).
(** The cell is kept: it is not an undivided cell of type Outside, and the part of its volume that is kept reaches the threshold. *)
Definition kept_cell {A : Type} (g : grid) (cells : list (tree A)) (type : ptr -> cell_type) (threshold : R) (c : nat) : Prop :=
  (c < length cells)%nat /\ ~ (a_leaf cells (c, []) /\ type (c, []) = Outside) /\
  exists l, leaves_of_cell cells c l /\ threshold * cell_volume g <= kept_volume g type l.

(** [x] is one of the corners of the cell of coordinates [c]. *)
Definition corner_of : grid -> list Z -> list R -> Prop := axiswise (fun a i x => x = plane a i \/ x = plane a (i + 1)).
(** What the values of an implicit surface at the corners of the cell say of it. *)
Definition type_at_corners (iso_value : list R -> R) (g : grid) (c : list Z) (ty : cell_type) : Prop :=
  match ty with
  | Inside => forall x, corner_of g c x -> iso_value x < 0
  | Outside => forall x, corner_of g c x -> 0 < iso_value x
  | Boundary => (exists x, corner_of g c x /\ 0 <= iso_value x) /\ (exists x, corner_of g c x /\ iso_value x <= 0)
  | Undefined => False
  end.

(** [ty] is the type of a cell whose closed box contains the point. *)
Definition type_around (g : grid) (types : list cell_type) (p : list R) (ty : cell_type) : Prop :=
  exists c, cell_of g c /\ closed_cell g c p /\ nth_error types (Z.to_nat (cell_index_at (subdivisions g) c)) = Some ty.
(** No coordinate of the point is at a distance strictly between 0 and 1e-19 cell of a lattice plane. *)
Definition clear_of_planes (g : grid) (p : list R) : Prop :=
  Forall2 (fun a x => forall i : Z, x = plane a i \/ / IZR (10 ^ 19) * (ax_size a / IZR (ax_n a)) <= Rabs (x - plane a i)) g p.

(** Triangle number [i] is recorded for the cell [c]: among the cells around the triangle's bounding box, it is the only one or
    the intersection test answers yes. *)
Definition meets (g : grid) (positions : list (list R)) (triangles : list (list nat)) (intersects : Z -> nat -> bool) (i c : nat) : Prop :=
  exists t, nth_error triangles i = Some t /\
    let around := cells_enclosing g (map (fun n => nth n positions []) t) in
    In (Z.of_nat c) around /\ (around = [Z.of_nat c] \/ intersects (Z.of_nat c) i = true).
(** The triangles have three existing nodes, and the nodes are in the grid. *)
Definition surface_in_grid (g : grid) (positions : list (list R)) (triangles : list (list nat)) : Prop :=
  Forall (in_grid g) positions /\ Forall (fun t => length t = 3%nat /\ Forall (fun n => (n < length positions)%nat) t) triangles.
(** The surface goes through the leaf. *)
Definition hit (g : grid) (positions : list (list R)) (triangles : list (list nat)) (intersects : Z -> nat -> bool)
    (intersects_exactly : box -> nat -> bool) (p : ptr) : Prop :=
  exists i, meets g positions triangles intersects i (fst p) /\ intersects_exactly (element g p) i = true.
(** One goes from [p] to [q] through faces without crossing a leaf that satisfies [wall]. *)
Definition reachable {A : Type} (g : grid) (cells : list (tree A)) (wall : ptr -> Prop) : ptr -> ptr -> Prop :=
  clos_refl_trans ptr (fun p q => neighbours g cells p q /\ ~ wall p /\ ~ wall q).
