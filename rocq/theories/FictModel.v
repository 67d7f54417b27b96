(** Model of SofaCaribou's fictitious grid:
    /repo/src/SofaCaribou/Topology/FictitiousGrid.inl (cited as I:lines), FictitiousGrid.cpp (C:lines), FictitiousGrid.h
    (H:lines), on top of the grid of GridModel/GridGeoModel.

    Simplifications (whole file): reals are exact; a [Cell *] is the index of its top cell and the indices of the sub-cells
    on the way down, deepest first (so that [parent] is the tail); the fields of the leaf data that change after the
    subdivision (type, region_id, boundary_of_region) are functions of that pointer.  The vectors made for drawing, the
    timers and the messages are not modelled. *)

From Coq Require Import Reals ZArith List Arith Bool.
From Verif Require Import GridModel GridGeoModel ShapeModel.
Import ListNotations.
Open Scope R_scope.

(** H:89-94 *)
Inductive cell_type := Undefined | Inside | Outside | Boundary.
Definition type_eqb (a b : cell_type) : bool :=
  match a, b with
  | Undefined, Undefined | Inside, Inside | Outside, Outside | Boundary, Boundary => true
  | _, _ => false
  end.
(** The numerical values of the enumeration; Undefined is the lowest INTEGER_TYPE (64 bits). *)
Definition type_value (t : cell_type) : Z :=
  match t with Undefined => - 2 ^ 63 | Inside => 1 | Outside => 2 | Boundary => 4 end%Z.

(** ** Elements of cells and sub-cells *)

(** A rectangular element without rotation: centre and side lengths (the constructors used at C:156, I:759-773 leave the
    rotation to the identity). *)
Record box := Box { center : list R; sides : list R }.
(** BaseRectangularHexahedron.h:80-82 and BaseRectangularQuad.h:74-83 with the identity rotation. *)
Definition box_world (e : box) (xi : list R) : list R := map3 (fun c h x => c + x * (h / 2)) (center e) (sides e) xi.
(** The default constructor: BaseRectangularHexahedron.h:45, BaseRectangularQuad.h. *)
Definition unit_box (D : nat) : box := Box (repeat 0 D) (repeat 2 D).
(** Grid.h:83-89, 209-215: p_grid->cell_at(coordinates). *)
Definition cell_box (g : grid) (c : list Z) : box := Box (map2 ax_cell_center g c) (map ax_H g).

(** I:753-776 *)
Definition subcell_centers (D : nat) : list (list R) :=
  match D with
  | 2%nat => [[-/2; -/2]; [/2; -/2]; [-/2; /2]; [/2; /2]]
  | 3%nat => [[-/2; -/2; -/2]; [/2; -/2; -/2]; [-/2; /2; -/2]; [/2; /2; -/2];
              [-/2; -/2; /2]; [/2; -/2; /2]; [-/2; /2; /2]; [/2; /2; /2]]
  | _ => []
  end.
Definition get_subcells_elements (D : nat) (e : box) : list box :=
  map (fun xi => Box (box_world e xi) (map (fun h => h / 2) (sides e))) (subcell_centers D).

(** C:21-39 *)
Definition subcell_coordinates (D : nat) : list (list Z) :=
  match D with
  | 2%nat => [[0; 0]; [1; 0]; [0; 1]; [1; 1]]
  | 3%nat => [[0; 0; 0]; [1; 0; 0]; [0; 1; 0]; [1; 1; 0]; [0; 0; 1]; [1; 0; 1]; [0; 1; 1]; [1; 1; 1]]
  | _ => []
  end%Z.
Definition coordinates_of (D : nat) (i : nat) : list Z := nth i (subcell_coordinates D) [].

(** Loop with the index of the element. *)
Definition mapi {A B : Type} (f : nat -> A -> B) : nat -> list A -> list B :=
  fix go i l := match l with [] => [] | a :: l => f i a :: go (S i) l end.

(** ** Quadtree (resp. octree): H:106-114 *)
Inductive tree (A : Type) := Leaf (a : A) | Node (childs : list (tree A)).
Arguments Leaf {A} a.
Arguments Node {A} childs.
Definition is_leaf {A} (t : tree A) : bool := match t with Leaf _ => true | Node _ => false end.

(** C:145-218 and C:238-330: the subdivision of one cell.  [classify e] is the type of the element and whether it must be
    subdivided; [levels] is the number of levels left: number_of_subdivision - level.  The queue treats the sub-cells one by
    one, independently of each other. *)
Fixpoint subdivide (D : nat) (classify : box -> cell_type * bool) (levels : nat) (e : box) (weight : R) {struct levels}
    : tree (cell_type * R) :=
  let '(type, subdivide_the_cell) := classify e in
  match levels with
  | O => Leaf (type, weight)
  | S levels =>
      if subdivide_the_cell
      then Node (map (fun e' => subdivide D classify levels e' (weight / 2 ^ D)) (get_subcells_elements D e))
      else Leaf (type, weight)
  end.

(** canonical nodes of the cells: Quad.h, Hexahedron.h *)
Definition corners (D : nat) : list (list R) :=
  match D with 2%nat => quad_corners | 3%nat => hexa_corners | _ => [] end.

(** C:173-196, C:266-289 *)
Definition sign_type (t : R) : cell_type :=
  if Rlt_dec t 0 then Inside else if Rlt_dec 0 t then Outside else Boundary.
Definition count (ty : cell_type) (l : list cell_type) : nat := length (filter (type_eqb ty) l).
Definition classify_iso (D : nat) (iso_value : list R -> R) (e : box) : cell_type * bool :=
  let types := map (fun xi => sign_type (iso_value (box_world e xi))) (corners D) in
  if Nat.eqb (count Inside types) (length (corners D)) then (Inside, false)
  else if Nat.eqb (count Outside types) (length (corners D)) then (Outside, false)
  else (Boundary, true).
(** C:290-310.  [intersects e i] is the answer of e.intersects for triangle number i. *)
Definition classify_triangles (intersects : box -> nat -> bool) (triangles : list nat) (e : box) : cell_type * bool :=
  if existsb (intersects e) triangles then (Boundary, true) else (Undefined, false).

(** C:136-218, C:231-330: all the cells of the grid, each one on its own (the loop is parallel, each iteration writes its own
    cell only).  [classify c] is the test used for the sub-cells of cell c. *)
Definition subdivide_intersected_cells (g : grid) (classify : nat -> box -> cell_type * bool) (number_of_subdivision : nat)
    : list (tree (cell_type * R)) :=
  let ns := subdivisions g in
  map (fun c => subdivide (length g) (classify c) number_of_subdivision (cell_box g (cell_coordinates_of_index ns (Z.of_nat c))) 1)
    (seq 0 (Z.to_nat (number_of_cells ns))).

(** ** Neighbours *)

Definition ptr : Type := (nat * list nat)%type.
Definition ptr_eqb (p q : ptr) : bool := Nat.eqb (fst p) (fst q) && (if list_eq_dec Nat.eq_dec (snd p) (snd q) then true else false).

(** macros.h.in: IN_CLOSED_INTERVAL *)
Definition in_closed_interval (a x b : Z) : bool := ((x - a) * (x - b) <=? 0)%Z.

(** I:842-854: going up; [Some up]: the suitable parent, [None]: the top was reached.  The second component is the stack
    [path], top first. *)
Fixpoint go_up (D axis : nat) (direction : Z) (p : list nat) (path : list (list Z)) : option (list nat) * list (list Z) :=
  match p with
  | [] => (None, path)
  | index :: parent =>
      let coordinates := coordinates_of D index in
      let path := coordinates :: path in
      if in_closed_interval 0 (nth axis coordinates 0%Z + direction) 1 then (Some parent, path)
      else go_up D axis direction parent path
  end.

Definition set_nth {A} (i : nat) (x : A) (l : list A) : list A := firstn i l ++ x :: skipn (S i) l.

(** I:875-882 (the remainder of C++ is that of the division truncated toward zero). *)
Definition opposite (D axis : nat) (direction : Z) (coordinates : list Z) : Z :=
  (let new_coordinate := Z.rem (nth axis coordinates 0 - direction) 2 in
   let coordinates := set_nth axis (new_coordinate * new_coordinate) coordinates in
   nth 0 coordinates 0 + nth 1 coordinates 0 * 2 + (if Nat.eqb D 3 then nth 2 coordinates 0 * 2 * 2 else 0))%Z.

(** I:874-885: going down along the path.  None: an index out of the array of children. *)
Fixpoint go_down {A} (D axis : nat) (direction : Z) (path : list (list Z)) (p : list nat) (t : tree A) : option (list nat * tree A) :=
  match path, t with
  | coordinates :: path, Node childs =>
      let index := Z.to_nat (opposite D axis direction coordinates) in
      match nth_error childs index with
      | None => None
      | Some c => go_down D axis direction path (index :: p) c
      end
  | _, _ => Some (p, t)
  end.

(** I:889-911: the leaves that face the queried cell.  The stack makes it visit the children from the last to the first. *)
Fixpoint facing {A} (D axis : nat) (search_axis : Z) (p : list nat) (t : tree A) : list (list nat) :=
  match t with
  | Leaf _ => [p]
  | Node childs =>
      concat (rev (mapi (fun i c =>
        if Z.eqb (nth axis (coordinates_of D i) 0%Z) search_axis then facing D axis search_axis (i :: p) c else [])
        0 childs))
  end.

(** The sub-cell at the end of a path (deepest first). *)
Fixpoint subtree {A} (t : tree A) (p : list nat) : option (tree A) :=
  match p with
  | [] => Some t
  | i :: up => match subtree t up with Some (Node childs) => nth_error childs i | _ => None end
  end.

(** I:829-918.  [ns] are the numbers of cells along the axes (p_grid->N()), [cells] is p_cells. *)
Definition get_neighbors {A} (ns : list Z) (cells : list (tree A)) (cell : ptr) (axis : nat) (direction : Z) : option (list ptr) :=
  let D := length ns in
  let '(top, p) := cell in
  let '(parent, path) := go_up D axis direction p [] in
  let start : option (option (nat * list nat * tree A)) :=
    match parent with
    | Some up =>
        match nth_error cells top with
        | None => None
        | Some t => match subtree t up with None => None | Some s => Some (Some (top, up, s)) end
        end
    | None =>
        let coordinates := cell_coordinates_of_index ns (Z.of_nat top) in
        let new_coordinate := (nth axis coordinates 0 + direction)%Z in
        let upper_limit := (nth axis ns 0 - 1)%Z in
        if (0 <=? new_coordinate)%Z && (new_coordinate <=? upper_limit)%Z then
          let top := Z.to_nat (cell_index_at ns (set_nth axis new_coordinate coordinates)) in
          match nth_error cells top with None => None | Some t => Some (Some (top, [], t)) end
        else Some None
    end in
  match start with
  | None => None
  | Some None => Some []
  | Some (Some (top, up, t)) =>
      match go_down D axis direction path up t with
      | None => None
      | Some (p, t) => Some (map (pair top) (facing D axis (if (direction <? 0)%Z then 1 else 0)%Z p t))
      end
  end.

(** I:778-806: the leaves of a cell, in breadth-first order.  Here the order is depth-first: only the set matters. *)
Fixpoint leaf_paths {A} (p : list nat) (t : tree A) : list (list nat) :=
  match t with
  | Leaf _ => [p]
  | Node childs =>
      concat (mapi (fun i c => leaf_paths (i :: p) c) 0 childs)
  end.

(** ** Regions: I:404-487 *)

(** Result of a function of the component: a value, a C++ exception, an access outside of an array. *)
Inductive result (A : Type) := Ok (a : A) | Thrown | UndefinedBehaviour.
Arguments Ok {A} a.
Arguments Thrown {A}.
Arguments UndefinedBehaviour {A}.

Definition assign {B} (f : ptr -> B) (p : ptr) (b : B) : ptr -> B := fun q => if ptr_eqb p q then b else f q.

Record labels := Labels { region_id : ptr -> Z; boundary_of_region : ptr -> bool; regions : list (cell_type * list ptr) }.

Definition update_nth {A} (i : nat) (f : A -> A) (l : list A) : list A := mapi (fun k a => if Nat.eqb k i then f a else a) 0 l.

(** I:462-478: one neighbour of [cell]; the second component is the queue cluster_cells. *)
Definition visit_neighbor (type : ptr -> cell_type) (region_type : cell_type) (current : nat) (cell : ptr)
    (s : result (labels * list ptr)) (neighbor : ptr) : result (labels * list ptr) :=
  match s with
  | Ok (st, queue) =>
      if negb (type_eqb (type neighbor) region_type) then
        Ok (Labels (region_id st) (assign (boundary_of_region st) cell true) (regions st), queue)
      else if negb (region_id st neighbor =? -1)%Z && negb (region_id st neighbor =? Z.of_nat current)%Z then Thrown
      else if (region_id st neighbor =? -1)%Z then
        Ok (Labels (assign (region_id st) neighbor (Z.of_nat current)) (boundary_of_region st)
              (update_nth current (fun r => (fst r, snd r ++ [neighbor])) (regions st)), queue ++ [neighbor])
      else s
  | _ => s
  end.
(** I:457-479: one face. *)
Definition visit_face (type : ptr -> cell_type) (region_type : cell_type) (current : nat) (cell : ptr)
    (s : result (labels * list ptr)) (face_neighbors : list ptr) : result (labels * list ptr) :=
  match face_neighbors with
  | [] => match s with
          | Ok (st, queue) => Ok (Labels (region_id st) (assign (boundary_of_region st) cell true) (regions st), queue)
          | _ => s
          end
  | _ => fold_left (visit_neighbor type region_type current cell) face_neighbors s
  end.
(** I:448-482; [faces c] are the neighbours of c through each of its faces.  [fuel] bounds the number of cells taken from the
    queue; when it is exhausted the loop is taken to run forever. *)
Fixpoint cluster (faces : ptr -> option (list (list ptr))) (type : ptr -> cell_type) (region_type : cell_type) (current : nat)
    (fuel : nat) (st : labels) (queue : list ptr) : option (result labels) :=
  match queue, fuel with
  | [], _ => Some (Ok st)
  | _ :: _, O => None
  | cell :: queue, S fuel =>
      match faces cell with
      | None => Some UndefinedBehaviour
      | Some fs =>
          match fold_left (visit_face type region_type current cell) fs (Ok (st, queue)) with
          | Ok (st, queue) => cluster faces type region_type current fuel st queue
          | Thrown => Some Thrown
          | UndefinedBehaviour => Some UndefinedBehaviour
          end
      end
  end.
(** I:427-442: one leaf of the outer loop. *)
Definition classify_leaf (faces : ptr -> option (list (list ptr))) (type : ptr -> cell_type) (fuel : nat)
    (s : option (result labels)) (c : ptr) : option (result labels) :=
  match s with
  | Some (Ok st) =>
      if (-1 <? region_id st c)%Z then s
      else
        let current := length (regions st) in
        cluster faces type (type c) current fuel
          (Labels (assign (region_id st) c (Z.of_nat current)) (boundary_of_region st) (regions st ++ [(type c, [c])])) [c]
  | _ => s
  end.
Definition no_labels : labels := Labels (fun _ => (-1)%Z) (fun _ => false) [].

(** All the leaves of the grid. *)
Definition all_leaves {A} (cells : list (tree A)) : list ptr :=
  concat (mapi (fun top t => map (pair top) (leaf_paths [] t)) 0 cells).
(** I:454-457: the loops over the axes and the directions. *)
Definition faces_of {A} (ns : list Z) (cells : list (tree A)) (c : ptr) : option (list (list ptr)) :=
  fold_right (fun ad r => match get_neighbors ns cells c (fst ad) (snd ad), r with
                          | Some l, Some r => Some (l :: r) | _, _ => None end) (Some [])
    (list_prod (seq 0 (length ns)) [-1; 1]%Z).
Definition create_regions {A} (ns : list Z) (cells : list (tree A)) (type : ptr -> cell_type) : option (result labels) :=
  let leaves := all_leaves cells in
  fold_left (classify_leaf (faces_of ns cells) type (length leaves)) leaves (Some (Ok no_labels)).

(** ** Outside and inside: I:489-565 *)

(** I:505-526: is_boundary_of_face, a bitset of 6 bits, all set at first; bits 2 axis and 2 axis + 1 for each axis. *)
Definition narrow (D : nat) (bits : list bool) (lower upper : nat -> bool) : list bool :=
  mapi (fun k b => if (k / 2 <? D)%nat then b && (if Nat.even k then lower (k / 2)%nat else upper (k / 2)%nat) else b) 0 bits.
Fixpoint narrow_up (D : nat) (p : list nat) (bits : list bool) : list bool :=
  match p with
  | [] => bits
  | index :: parent =>
      let coordinates := coordinates_of D index in
      narrow_up D parent (narrow D bits (fun axis => Z.eqb (nth axis coordinates 0) 0) (fun axis => Z.eqb (nth axis coordinates 0) 1))%Z
  end.
Definition touches_border (ns : list Z) (cell : ptr) : bool :=
  let D := length ns in
  let '(top, p) := cell in
  let bits := narrow_up D p (repeat true 6) in
  let coordinates := cell_coordinates_of_index ns (Z.of_nat top) in
  existsb (fun b => b)
    (narrow D bits (fun axis => Z.eqb (nth axis coordinates 0) 0) (fun axis => Z.eqb (nth axis coordinates 0) (nth axis ns 0 - 1)))%Z.

Definition assign_all {B} (f : ptr -> B) (l : list ptr) (b : B) : ptr -> B := fold_left (fun f p => assign f p b) l f.
(** I:499-539 *)
Definition tag_outside (ns : list Z) (s : list (cell_type * list ptr) * (ptr -> cell_type)) : list (cell_type * list ptr) * (ptr -> cell_type) :=
  fold_left (fun s r =>
    if type_eqb (fst r) Undefined && existsb (touches_border ns) (snd r)
    then (fst s ++ [(Outside, snd r)], assign_all (snd s) (snd r) Outside)
    else (fst s ++ [r], snd s)) (fst s) ([], snd s).
(** I:552-561 *)
Definition tag_inside (s : list (cell_type * list ptr) * (ptr -> cell_type)) : list (cell_type * list ptr) * (ptr -> cell_type) :=
  fold_left (fun s r =>
    if type_eqb (fst r) Undefined
    then (fst s ++ [(Inside, snd r)], assign_all (snd s) (snd r) Inside)
    else (fst s ++ [r], snd s)) (fst s) ([], snd s).

(** ** Weights and quadrature *)

(** The leaf data of a pointer. *)
Definition leaf_data {A} (cells : list (tree A)) (p : ptr) : option A :=
  match nth_error cells (fst p) with
  | Some t => match subtree t (snd p) with Some (Leaf a) => Some a | _ => None end
  | None => None
  end.

(** The type given to a leaf by the subdivision. *)
Definition initial_type (cells : list (tree (cell_type * R))) (p : ptr) : cell_type :=
  match leaf_data cells p with Some (ty, _) => ty | None => Undefined end.
Definition leaf_weight (cells : list (tree (cell_type * R))) (p : ptr) : R :=
  match leaf_data cells p with Some (_, w) => w | None => 0 end.

(** The weights of the leaves of a cell. *)
Fixpoint tree_map {A B} (f : A -> B) (t : tree A) : tree B :=
  match t with Leaf a => Leaf (f a) | Node childs => Node (map (tree_map f) childs) end.

(** I:567-602: None: it does not throw; the volumes are in units of the exact arithmetic. *)
Definition validate_grid (g : grid) (weight : ptr -> R) (regions : list (cell_type * list ptr)) : bool :=
  let cell_volume := fold_right Rmult 1 (map ax_H g) in
  let volume := fold_right Rplus 0 (map (fun r => fold_right Rplus 0 (map (fun c => weight c * cell_volume) (snd r))) regions) in
  let grid_volume := fold_right Rmult 1 (map ax_size g) in
  if Rlt_dec (grid_volume * 1e-8) (Rabs (volume - grid_volume)) then false else true.

(** I:920-935.  [type] is the current type of the leaves below [p]. *)
Definition retained (ty : cell_type) : bool := type_eqb ty Inside || type_eqb ty Boundary.
Fixpoint get_cell_weight (type : list nat -> cell_type) (p : list nat) (t : tree R) : R :=
  match t with
  | Leaf w => if retained (type p) then w else 0
  | Node childs => fold_right Rplus 0 (mapi (fun i c => get_cell_weight type (i :: p) c) 0 childs)
  end.

(** RectangularQuad.h:132-141, RectangularHexahedron.h:162-175 *)
Definition gauss_nodes (D : nat) : list (list R * R) :=
  match D with 2%nat => RectangularQuad_Linear_gauss | 3%nat => RectangularHexahedron_Linear_gauss | _ => [] end.

(** I:952-988; [levels] is maximum_level - l. *)
Fixpoint get_gauss_cells (D : nat) (type : list nat -> cell_type) (levels : nat) (e : box) (p : list nat) (t : tree R) {struct t}
    : list (list R * R) :=
  match t with
  | Leaf w => map (fun gn => (fst gn, if retained (type p) then snd gn * w else 0)) (gauss_nodes D)
  | Node childs =>
      match levels with
      | O =>
          mapi (fun i gn => (fst gn,
            snd gn * (INR (length (gauss_nodes D)) * get_cell_weight type (i :: p) (nth i childs (Leaf 0))))) 0 (gauss_nodes D)
      | S levels =>
          concat (mapi (fun i c =>
            let child := nth i (get_subcells_elements D e) (unit_box D) in
            map (fun gn => (box_world child (fst gn), snd gn)) (get_gauss_cells D type levels child (i :: p) c)) 0 childs)
      end
  end.
(** I:990-998: detJ of the cell is the product of half its sides (constant Jacobian, C20). *)
Definition get_gauss_nodes_of_cell (g : grid) (type : list nat -> cell_type) (maximum_level : nat) (t : tree R) : list (list R * R) :=
  let D := length g in
  let detJ := fold_right Rmult 1 (map (fun a => ax_H a / 2) g) in
  map (fun gn => (fst gn, snd gn * detJ)) (get_gauss_cells D type maximum_level (unit_box D) [] t).

(** ** Sparse grid: I:617-750 *)
Record sparse := Sparse {
  node_index_in_sparse_grid : list Z; node_index_in_grid : list Z; positions : list (list R);
  cell_index_in_sparse_grid : list Z; cell_index_in_grid : list Z; cells_of_nodes : list (list Z) }.

(** I:634-656: use_cell; [type] is the current type of the leaves. *)
Definition use_cell (cells : list (tree (cell_type * R))) (type : ptr -> cell_type) (volume_threshold : R) (c : nat) : bool :=
  match nth_error cells c with
  | Some t =>
      (negb (is_leaf t) || negb (type_eqb (type (c, [])) Outside)) &&
      (if Rle_dec volume_threshold (get_cell_weight (fun p => type (c, p)) [] (tree_map snd t)) then true else false)
  | None => false
  end.
(** The nodes of the used cells: I:649-651. *)
Definition use_node (ns : list Z) (used : list nat) (node : Z) : bool :=
  existsb (fun c => existsb (Z.eqb node) (node_indices_of ns (Z.of_nat c))) used.
(** Number of nodes of the grid. *)
Definition number_of_nodes (ns : list Z) : Z := fold_right Z.mul 1%Z (map (fun n => n + 1)%Z ns).
(** I:669-680 and I:698-727: scanning the indices in order, giving the next number to those in use. *)
Fixpoint number (in_use : Z -> bool) (indices : list Z) (sparse_index : list Z) (grid_index : list Z) : list Z * list Z :=
  match indices with
  | [] => (sparse_index, grid_index)
  | i :: indices =>
      if in_use i then number in_use indices (sparse_index ++ [Z.of_nat (length grid_index)]) (grid_index ++ [i])
      else number in_use indices (sparse_index ++ [(-1)%Z]) grid_index
  end.
Definition create_sparse_grid (g : grid) (use : nat -> bool) : sparse :=
  let ns := subdivisions g in
  let n := Z.to_nat (number_of_cells ns) in
  let used := filter use (seq 0 n) in
  let node_ids := map Z.of_nat (seq 0 (Z.to_nat (number_of_nodes ns))) in
  let cell_ids := map Z.of_nat (seq 0 n) in
  let '(node_sparse, node_grid) := number (use_node ns used) node_ids [] [] in
  let '(cell_sparse, cell_grid) := number (fun c => use (Z.to_nat c)) cell_ids [] [] in
  Sparse node_sparse node_grid (map (node_at_index g) node_grid) cell_sparse cell_grid
    (map (fun c => map (fun n => nth (Z.to_nat n) node_sparse (-1)%Z) (node_indices_of ns c)) cell_grid).

(** ** Types of the cells and of points *)

(** I:371-398.  [types] has three entries; it is indexed by the value of the enumeration: 1, 2 or 4. *)
Definition tag_cells_from_implicit_surface (g : grid) (iso_value : list R -> R) : result (list cell_type) :=
  let ns := subdivisions g in
  let node_type n := sign_type (iso_value (node_at_index g n)) in
  fold_left (fun s cell =>
    match s with
    | Ok types_of_cells =>
        let nodes := node_indices_of ns (Z.of_nat cell) in
        if existsb (fun n => (3 <=? type_value (node_type n))%Z) nodes then UndefinedBehaviour
        else
          let types := map node_type nodes in
          let ty := if Nat.eqb (count Inside types) (length nodes) then Inside
                    else if Nat.eqb (count Outside types) (length nodes) then Outside
                    else Boundary in
          Ok (types_of_cells ++ [ty])
    | _ => s
    end) (seq 0 (Z.to_nat (number_of_cells ns))) (Ok []).

(** I:1001-1038.  [types] is p_cells_types; the bitwise OR and AND of the values of the enumeration. *)
Definition get_type_at (g : grid) (types : list cell_type) (p : list R) : result cell_type :=
  if contains g p EPSILON then
    let cells := cells_around g p in
    let type_of c := nth_error types (Z.to_nat c) in
    match cells with
    | [c] => match type_of c with Some t => Ok t | None => UndefinedBehaviour end
    | _ =>
        match fold_left (fun acc c => match acc, type_of c with Some z, Some t => Some (Z.lor z (type_value t)) | _, _ => None end)
                cells (Some 0%Z) with
        | None => UndefinedBehaviour
        | Some types =>
            if negb (Z.land types (type_value Boundary) =? 0)%Z then Ok Boundary
            else if negb (Z.land types (type_value Inside) =? 0)%Z && negb (Z.land types (type_value Outside) =? 0)%Z then Ok Boundary
            else Thrown
        end
    end
  else Ok Outside.

(** ** Tagging with a tessellated surface: C:48-126.  The state of the component: p_cells_types and p_triangles_of_cell.
    [triangles] are lists of three node indices, [intersects cell triangle] is e.intersects(t). *)
Record surface_state := Surface { cells_types : list cell_type; triangles_of_cell : list (list nat) }.
Definition mark (s : surface_state) (triangle : nat) (cell : Z) : surface_state :=
  Surface (update_nth (Z.to_nat cell) (fun _ => Boundary) (cells_types s))
          (update_nth (Z.to_nat cell) (fun l => l ++ [triangle]) (triangles_of_cell s)).
Fixpoint tag_triangles (g : grid) (positions : list (list R)) (intersects : Z -> nat -> bool) (triangle_index : nat)
    (triangles : list (list nat)) (s : surface_state) : surface_state :=
  match triangles with
  | [] => s
  | triangle :: rest =>
      if existsb (fun n => (length positions <=? n)%nat) triangle then s
      else
        let nodes := map (fun n => nth n positions []) triangle in
        if existsb (fun p => negb (contains g p EPSILON)) nodes
        then tag_triangles g positions intersects (S triangle_index) rest s
        else
          match cells_enclosing g nodes with
          | [] => s
          | [c] => tag_triangles g positions intersects (S triangle_index) rest (mark s triangle_index c)
          | enclosing_cells =>
              tag_triangles g positions intersects (S triangle_index) rest
                (fold_left (fun s c => if intersects c triangle_index then mark s triangle_index c else s) enclosing_cells s)
          end
  end.
(** std::vector::resize *)
Definition resize {A} (n : nat) (a : A) (l : list A) : list A := firstn n l ++ repeat a (n - length l).
(** I:311 and C:59: the vectors are resized, not cleared. *)
Definition tag_intersected_cells (g : grid) (positions : list (list R)) (intersects : Z -> nat -> bool)
    (triangles : list (list nat)) (s : surface_state) : surface_state :=
  let n := Z.to_nat (number_of_cells (subdivisions g)) in
  tag_triangles g positions intersects 0 triangles (Surface (resize n Undefined (cells_types s)) (resize n [] (triangles_of_cell s))).

(** ** create_grid: I:289-351 *)

(** What create_grid leaves in the component. *)
Record component := Component {
  surface : surface_state; forest : list (tree (cell_type * R)); leaf_type : ptr -> cell_type;
  grid_regions : list (cell_type * list ptr); sparse_grid : sparse }.
(** I:327-347: from the subdivision to the sparse grid, for a given test of the sub-cells. *)
Definition finish_grid (g : grid) (classify : nat -> box -> cell_type * bool) (number_of_subdivision : nat) (volume_threshold : R)
    (s : surface_state) : option (result component) :=
  let ns := subdivisions g in
  let cells := subdivide_intersected_cells g classify number_of_subdivision in
  let type := initial_type cells in
  match create_regions ns cells type with
  | None => None
  | Some (Ok st) =>
      let r := tag_inside (tag_outside ns (regions st, type)) in
      Some (if validate_grid g (leaf_weight cells) (fst r)
            then Ok (Component s cells (snd r) (fst r) (create_sparse_grid g (use_cell cells (snd r) volume_threshold)))
            else Thrown)
  | Some Thrown => Some Thrown
  | Some UndefinedBehaviour => Some UndefinedBehaviour
  end.
(** With an iso-surface: I:321-322.  In three dimensions C:240 takes a reference to p_triangles_of_cell[cell_index]; only
    tag_intersected_cells gives that vector a size (C:59). *)
Definition create_grid_from_iso_surface (g : grid) (iso_value : list R -> R) (number_of_subdivision : nat) (volume_threshold : R)
    (s : surface_state) : option (result component) :=
  match tag_cells_from_implicit_surface g iso_value with
  | Ok types =>
      if Nat.eqb (length g) 3 && (length (triangles_of_cell s) <? Z.to_nat (number_of_cells (subdivisions g)))%nat
      then Some UndefinedBehaviour
      else finish_grid g (fun _ => classify_iso (length g) iso_value) number_of_subdivision volume_threshold
             (Surface types (triangles_of_cell s))
  | Thrown => Some Thrown
  | UndefinedBehaviour => Some UndefinedBehaviour
  end.

(** C:291-303: going through the triangles kept for the cell until one intersects the sub-cell, a triangle or one of its nodes
    is read out of range ([valid i]: triangle i and its nodes exist). *)
Fixpoint reads_out_of_range (valid : nat -> bool) (intersects : box -> nat -> bool) (triangles : list nat) (e : box) : bool :=
  match triangles with
  | [] => false
  | i :: triangles => if negb (valid i) then true else if intersects e i then false else reads_out_of_range valid intersects triangles e
  end.
(** The same for some sub-cell visited by [subdivide]. *)
Fixpoint subdivision_reads (D : nat) (classify : box -> cell_type * bool) (out_of_range : box -> bool) (levels : nat) (e : box) : bool :=
  out_of_range e ||
  match levels with
  | O => false
  | S levels => snd (classify e) && existsb (subdivision_reads D classify out_of_range levels) (get_subcells_elements D e)
  end.
(** With a tessellated surface in three dimensions: I:323-325.  [intersects c i] is e.intersects(t) of C:103, for the element of
    cell c and triangle i; [intersects_exactly e i] is e.intersects(t, 0) of C:302. *)
Definition create_grid_from_triangles (g : grid) (positions : list (list R)) (triangles : list (list nat))
    (intersects : Z -> nat -> bool) (intersects_exactly : box -> nat -> bool) (number_of_subdivision : nat) (volume_threshold : R)
    (s : surface_state) : option (result component) :=
  let ns := subdivisions g in
  let s := tag_intersected_cells g positions intersects triangles s in
  let kept c := nth c (triangles_of_cell s) [] in
  let classify c := classify_triangles intersects_exactly (kept c) in
  let valid i := match nth_error triangles i with Some t => forallb (fun n => (n <? length positions)%nat) t | None => false end in
  if existsb (fun c => subdivision_reads (length g) (classify c) (reads_out_of_range valid intersects_exactly (kept c)) number_of_subdivision
                         (cell_box g (cell_coordinates_of_index ns (Z.of_nat c))))
       (seq 0 (Z.to_nat (number_of_cells ns)))
  then Some UndefinedBehaviour
  else finish_grid g classify number_of_subdivision volume_threshold s.

(** I:260-283, for one axis: [m] and [lowest] are the largest and the lowest floating point numbers. *)
Definition bounds (m lowest : R) (coordinates : list R) : R * R :=
  fold_left (fun b x => (if Rlt_dec x (fst b) then x else fst b, if Rlt_dec (snd b) x then x else snd b)) coordinates (m, lowest).
(** I:292-309, for one axis: the two corners of the grid and the number of nodes. *)
Definition axis_between (first second : R) (n : Z) : axis := Axis (Rmin first second) (n - 1) (Rabs (first - second)).
