(** The VTK reader: /repo/src/Caribou/Topology/IO/VTKReader.h and VTKReader.cpp.
    Simplifications: VTK's own reading of the file is not modelled, a [grid] is the unstructured grid it returns; the
    coordinates are reals; the map of domain builders only holds the entries put by the constructor.  The mesh is its
    nodes and its list of (name, element type, table of node indices): see MeshModel for meshes with their pointers. *)

From Coq Require Import String List Arith Bool Reals.
From Flocq Require Import Core.Raux.
From Verif Require Import ShapeModel.
Import ListNotations.
Open Scope nat_scope.

(** Cell types of VTK (vtkCellType.h); [VTK_other] stands for all those the reader does not use. *)
Inductive cell_type :=
| VTK_LINE | VTK_QUADRATIC_EDGE | VTK_QUAD | VTK_QUADRATIC_QUAD | VTK_TRIANGLE | VTK_QUADRATIC_TRIANGLE
| VTK_TETRA | VTK_QUADRATIC_TETRA | VTK_HEXAHEDRON | VTK_QUADRATIC_HEXAHEDRON | VTK_other (t : nat).
Scheme Equality for cell_type.

Record grid := { points : list (list R); cells : list (cell_type * list nat) }.

(** What a call does: returns, throws std::runtime_error, or reads out of an array (undefined behaviour). *)
Inductive outcome (A : Type) := Returns (a : A) | Throws | Undefined.
Arguments Returns {A} a.
Arguments Throws {A}.
Arguments Undefined {A}.

(** Lines 243-249: the bits of is_all_the_same. *)
Definition mark (last_value : list R) (same : list bool) (v : list R) : list bool :=
  map (fun axis => if negb (Req_bool (nth axis last_value 0%R) (nth axis v 0%R)) then false else nth axis same false) (seq 0 3).
(** Lines 260-264 *)
Definition kept (same : list bool) : list nat := filter (fun axis => negb (nth axis same false)) (seq 0 3).

(** Lines 231-268 *)
Definition extract_axes (Dimension : nat) (pts : list (list R)) : outcome (list nat) :=
  if Nat.eqb Dimension 3 then Returns [0; 1; 2]
  else match pts with
       | [] => Undefined
       | first :: others =>
           let is_all_the_same := fold_left (mark first) others [true; true; true] in
           if Nat.eqb (length (filter negb is_all_the_same)) Dimension then Returns (kept is_all_the_same) else Throws
       end.

(** Lines 62-73: the assignments reordered_indices.col(a) = indices.col(b), in this order. *)
Definition reordering : list (nat * nat) :=
  [ (10, 18); (12, 10); (13, 14); (14, 15); (15, 12); (16, 13); (17, 16); (18, 19); (19, 17) ].
Definition assign (indices row : list nat) (p : nat * nat) : list nat :=
  firstn (fst p) row ++ nth (snd p) indices 0 :: skipn (S (fst p)) row.
Definition reorder (indices : list nat) : list nat := fold_left (assign indices) reordering indices.

(** Lines 38-76: the element type and the treatment of the rows for each cell type. *)
Definition domain_builder (Dimension : nat) (t : cell_type) : option (element * (list nat -> list nat)) :=
  match t with
  | VTK_LINE => Some (Segment_Linear, fun r => r)
  | VTK_QUADRATIC_EDGE => Some (Segment_Quadratic, fun r => r)
  | VTK_QUAD => if 1 <? Dimension then Some (Quad_Linear, fun r => r) else None
  | VTK_QUADRATIC_QUAD => if 1 <? Dimension then Some (Quad_Quadratic, fun r => r) else None
  | VTK_TRIANGLE => if 1 <? Dimension then Some (Triangle_Linear, fun r => r) else None
  | VTK_QUADRATIC_TRIANGLE => if 1 <? Dimension then Some (Triangle_Quadratic, fun r => r) else None
  | VTK_TETRA => if 2 <? Dimension then Some (Tetrahedron_Linear, fun r => r) else None
  | VTK_QUADRATIC_TETRA => if 2 <? Dimension then Some (Tetrahedron_Quadratic, fun r => r) else None
  | VTK_HEXAHEDRON => if 2 <? Dimension then Some (Hexahedron_Linear, fun r => r) else None
  | VTK_QUADRATIC_HEXAHEDRON => if 2 <? Dimension then Some (Hexahedron_Quadratic, reorder) else None
  | VTK_other _ => None
  end.

(** Domains are named "domain_" followed by the number of domains plus one (VTKReader.h:42, VTKReader.cpp:74): only this
    number is kept as their name. *)
Record domain := { name : nat; kind : element; rows : list (list nat) }.
Record mesh := { nodes : list (list R); domains : list domain }.

(** vtkUnstructuredGrid::GetIdsOfCellsOfType *)
Definition cells_of_type (g : grid) (t : cell_type) : list (list nat) :=
  map snd (filter (fun c => cell_type_beq (fst c) t) (cells g)).

(** Lines 126-157 for one cell type; None is a write out of the table [indices], whose width is the number of nodes of
    the first cell. *)
Definition read_type (Dimension : nat) (g : grid) (m : option mesh) (t : cell_type) : option mesh :=
  match m with
  | None => None
  | Some m =>
      match cells_of_type g t, domain_builder Dimension t with
      | [], _ => Some m
      | _, None => Some m
      | (c :: _) as indices, Some (e, build) =>
          if forallb (fun r => Nat.eqb (length r) (length c)) indices
          then Some {| nodes := nodes m;
                       domains := domains m ++ [ {| name := S (length (domains m)); kind := e; rows := map build indices |} ] |}
          else None
      end
  end.

(** Lines 100-160.  [types] is what vtkUnstructuredGrid::GetCellTypes gives. *)
Definition read_mesh (Dimension : nat) (axes : list nat) (g : grid) (types : list cell_type) : option mesh :=
  match points g with
  | [] => Some {| nodes := []; domains := [] |}
  | _ => fold_left (read_type Dimension g) types
           (Some {| nodes := map (fun v => map (fun axis => nth axis v 0%R) axes) (points g); domains := [] |})
  end.

(** Lines 80-97 then 100-160: Read(file).mesh(). *)
Definition read (Dimension : nat) (g : grid) (types : list cell_type) : outcome mesh :=
  match extract_axes Dimension (points g) with
  | Returns axes => match read_mesh Dimension axes g types with Some m => Returns m | None => Undefined end
  | Throws => Throws
  | Undefined => Undefined
  end.
