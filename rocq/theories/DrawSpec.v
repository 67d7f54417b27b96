(** Vocabulary for what is drawn of a mesh (C94). *)

From Coq Require Import ZArith Reals List Arith.
From Verif Require Import GridGeoModel ShapeModel ShapeSpec LinAlg BarycentricModel DrawModel.
Import ListNotations.
Open Scope R_scope.

(** The elements for which a force field exists, in the dimensions of the space they live in. *)
Definition drawable (d : domain) : Prop :=
  (In (kind d) [Triangle_Linear; Triangle_Quadratic; Quad_Linear; Quad_Quadratic] /\ (dim d = 2%nat \/ dim d = 3%nat)) \/
  (In (kind d) [Tetrahedron_Linear; Tetrahedron_Quadratic; Hexahedron_Linear; Hexahedron_Quadratic] /\ dim d = 3%nat).
(** The drawable elements whose only nodes are their corners. *)
Definition linear_kind (e : element) : Prop := In e [Triangle_Linear; Quad_Linear; Tetrahedron_Linear; Hexahedron_Linear].
(** Positions x for a mesh: every element has the nodes of its type, and they have positions in space. *)
Definition placed (D n : nat) (rows : list (list nat)) (x : list (list R)) : Prop :=
  Forall (fun row => length row = n /\ Forall (fun i => (i < length x)%nat) row) rows /\ Forall (fun p => length p = D) x.

(** The same mesh with other elements. *)
Definition with_elements (d : domain) (rows : list (list nat)) : domain :=
  {| dim := dim d; kind := kind d; positions := positions d; connectivity := rows |}.

(** All the vertices of a drawing. *)
Definition all_vertices (calls : list drawing_call) : list (list R) := flat_map vertices calls.

(** The triangles of an array of vertices, three by three. *)
Fixpoint triangles (vs : list (list R)) : list (list (list R)) :=
  match vs with p :: q :: r :: rest => [p; q; r] :: triangles rest | _ => [] end.

(** A surface made of triangles is closed and consistently oriented when every quantity that changes sign with the direction
    of an edge adds up to zero along the edges of its triangles: each edge is run as many times in one direction as in the
    other. *)
Definition around (w : list R -> list R -> R) (t : list (list R)) : R :=
  match t with [p; q; r] => w p q + w q r + w r p | _ => 0 end.
Definition closed_surface (vs : list (list R)) : Prop :=
  forall w, (forall p q, w p q = - w q p) -> Rsum (map (around w) (triangles vs)) = 0.
(** Volume enclosed by a surface made of triangles, positive when they are turned to the outside: the sum of the volumes of
    the cones from the origin (divergence theorem). *)
Definition enclosed_volume (vs : list (list R)) : R := Rsum (map (fun t => det t / 6) (triangles vs)).
(** Area of a flat surface made of triangles, positive when they are counterclockwise. *)
Definition flat_area (vs : list (list R)) : R :=
  Rsum (map (fun t => match t with [p; q; r] => nth 2 (vcross (vminus q p) (vminus r p)) 0 / 2 | _ => 0 end) (triangles vs)).

(** Measure of an element: the integral of the determinant of its jacobian, by its quadrature rule. *)
Definition measure (D : nat) (e : element) (nodes : list (list R)) : R := quadrature e (fun xi => det (jacobian D e nodes xi)).
Definition nodes_at (x : list (list R)) (row : list nat) : list (list R) := map (fun i => nth i x []) row.

(** Affine maps of space. *)
Definition affine_map (A : list (list R)) (t : list R) (p : list R) : list R := vadd t (matvec A p).
Definition moved (A : list (list R)) (t : list R) (calls : list drawing_call) : list drawing_call :=
  map (fun c => {| vertices := map (affine_map A t) (vertices c); color := color c |}) calls.

(** An affine map of the plane is also one of space, which keeps the third coordinate. *)
Definition lift_matrix (D : nat) (A : list (list R)) : list (list R) :=
  if Nat.eqb D 2 then map (fun row => row ++ [0]) A ++ [[0; 0; 1]] else A.
Definition lift_vector (D : nat) (t : list R) : list R := if Nat.eqb D 2 then t ++ [0] else t.

(** Convex hull of points. *)
Definition in_hull (D : nat) (points : list (list R)) (p : list R) : Prop :=
  exists weights, length weights = length points /\ Forall (fun w => 0 <= w) weights /\ Rsum weights = 1 /\
    length p = D /\ forall c, (c < D)%nat -> nth c p 0 = Rsum (map2 (fun w q => w * nth c q 0) weights points).

(** The corners of an element: its first nodes. *)
Definition number_of_corners (e : element) : nat :=
  match e with
  | Segment_Linear | Segment_Quadratic => 2
  | Triangle_Linear | Triangle_Quadratic => 3
  | Quad_Linear | Quad_Quadratic | RectangularQuad_Linear | RectangularQuad_Quadratic | Tetrahedron_Linear | Tetrahedron_Quadratic => 4
  | _ => 8
  end%nat.
(** The corners of a face of a volume element, and the corners of a surface element. *)
Definition corners_of_face (e : element) (face : nat) : list nat :=
  if Nat.eqb (CanonicalDimension e) 2 then seq 0 (number_of_corners e)
  else firstn (match e with Tetrahedron_Linear | Tetrahedron_Quadratic => 3 | _ => 4 end)%nat (nth face (boundary_elements_node_indices e) []).
(** A point of space as the drawing tool takes it. *)
Definition in_space (D : nat) (p : list R) : list R := if Nat.eqb D 2 then p ++ [0] else p.

(** A triangle of a closed surface is turned to the outside, seen from a point inside. *)
Definition faces_away_from (c : list R) (t : list (list R)) : Prop :=
  match t with [p; q; r] => 0 < vdot (vcross (vminus q p) (vminus r p)) (vminus p c) | _ => False end.
Definition faces_towards (c : list R) (t : list (list R)) : Prop :=
  match t with [p; q; r] => vdot (vcross (vminus q p) (vminus r p)) (vminus p c) < 0 | _ => False end.
