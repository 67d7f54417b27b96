(** Vocabulary for the VTK reader (C66, C67, C68). *)

From Coq Require Import Reals List Arith.
From Verif Require Import ShapeModel VtkModel.
Import ListNotations.
Open Scope nat_scope.

(** ** Varying axes *)
Definition varies (axis : nat) (pts : list (list R)) : Prop :=
  exists p q, In p pts /\ In q pts /\ nth axis p 0%R <> nth axis q 0%R.

(** [axes] lists, in increasing order, the axes among x, y, z along which the coordinates vary. *)
Definition varying_axes (pts : list (list R)) (axes : list nat) : Prop :=
  (forall axis, In axis axes <-> (axis < 3)%nat /\ varies axis pts) /\
  (forall i j, i < j < length axes -> nth i axes 0 < nth j axes 0).

(** ** Node orders *)

(** The documentation of VTK (classes vtkQuadraticEdge, vtkQuadraticQuad, vtkQuadraticTriangle, vtkQuadraticTetra,
    vtkQuadraticHexahedron) numbers the corners first, then one node at the middle of each of these edges. *)
Definition vtk_edges (t : cell_type) : list (nat * nat) :=
  match t with
  | VTK_QUADRATIC_EDGE => [ (0, 1) ]
  | VTK_QUADRATIC_TRIANGLE => [ (0, 1); (1, 2); (2, 0) ]
  | VTK_QUADRATIC_QUAD => [ (0, 1); (1, 2); (2, 3); (3, 0) ]
  | VTK_QUADRATIC_TETRA => [ (0, 1); (1, 2); (2, 0); (0, 3); (1, 3); (2, 3) ]
  | VTK_QUADRATIC_HEXAHEDRON =>
      [ (0, 1); (1, 2); (2, 3); (3, 0); (4, 5); (5, 6); (6, 7); (7, 4); (0, 4); (1, 5); (2, 6); (3, 7) ]
  | _ => []
  end.

(** Corners of the reference cells, in the order of VTK: counterclockwise, bottom face first. *)
Definition vtk_corners (t : cell_type) : list (list R) :=
  match t with
  | VTK_LINE | VTK_QUADRATIC_EDGE => [ [-1]; [1] ]
  | VTK_TRIANGLE | VTK_QUADRATIC_TRIANGLE => [ [0; 0]; [1; 0]; [0; 1] ]
  | VTK_QUAD | VTK_QUADRATIC_QUAD => [ [-1; -1]; [1; -1]; [1; 1]; [-1; 1] ]
  | VTK_TETRA | VTK_QUADRATIC_TETRA => [ [0; 0; 0]; [1; 0; 0]; [0; 1; 0]; [0; 0; 1] ]
  | VTK_HEXAHEDRON | VTK_QUADRATIC_HEXAHEDRON =>
      [ [-1; -1; -1]; [1; -1; -1]; [1; 1; -1]; [-1; 1; -1]; [-1; -1; 1]; [1; -1; 1]; [1; 1; 1]; [-1; 1; 1] ]
  | VTK_other _ => []
  end%R.

Definition midpoint (p q : list R) : list R := map (fun c => ((nth c p 0 + nth c q 0) / 2)%R) (seq 0 (length p)).

(** Positions on the reference cell of the nodes of a cell whose edges come in the given order. *)
Definition positions (corners : list (list R)) (edges : list (nat * nat)) : list (list R) :=
  corners ++ map (fun p => midpoint (nth (fst p) corners []) (nth (snd p) corners [])) edges.
Definition vtk_positions (t : cell_type) : list (list R) := positions (vtk_corners t) (vtk_edges t).

(** A cell of a mesh: the index of the mesh node standing at each position of the reference cell. *)
Definition labelling := list R -> nat.

(** ** The whole file *)

(** [types] enumerates, once each, the cell types present in the grid. *)
Definition enumerates (g : grid) (types : list cell_type) : Prop :=
  NoDup types /\ forall t, In t types <-> exists c, In (t, c) (cells g).
(** Cells of the same type have the same number of nodes. *)
Definition uniform (g : grid) : Prop :=
  forall t c c', In (t, c) (cells g) -> In (t, c') (cells g) -> length c = length c'.

(** The element type a VTK cell type stands for. *)
Definition element_of (t : cell_type) : option element :=
  match t with
  | VTK_LINE => Some Segment_Linear | VTK_QUADRATIC_EDGE => Some Segment_Quadratic
  | VTK_QUAD => Some Quad_Linear | VTK_QUADRATIC_QUAD => Some Quad_Quadratic
  | VTK_TRIANGLE => Some Triangle_Linear | VTK_QUADRATIC_TRIANGLE => Some Triangle_Quadratic
  | VTK_TETRA => Some Tetrahedron_Linear | VTK_QUADRATIC_TETRA => Some Tetrahedron_Quadratic
  | VTK_HEXAHEDRON => Some Hexahedron_Linear | VTK_QUADRATIC_HEXAHEDRON => Some Hexahedron_Quadratic
  | VTK_other _ => None
  end.
(** Cells that fit in the dimension of the mesh. *)
Definition supported (D : nat) (t : cell_type) (e : element) : Prop := element_of t = Some e /\ CanonicalDimension e <= D.
Definition element_eq_dec (e e' : element) : {e = e'} + {e <> e'}.
Proof. decide equality. Defined.
