(** What a user expects of the functions that make elements in Python. *)

From Coq Require Import ZArith Reals List Arith Bool.
From Verif Require Import GridGeoModel ShapeModel ShapeSpec RectModel FactoryModel.
Import ListNotations.
Open Scope nat_scope.

(** The five functions that make an element with nodes, the linear and the quadratic element of each, and the dimensions
    these exist in. *)
Inductive family := OfSegments | OfTriangles | OfQuads | OfTetrahedra | OfHexahedra.
Definition function_of (f : family) : list value -> option made :=
  match f with
  | OfSegments => Segment | OfTriangles => Triangle | OfQuads => Quad | OfTetrahedra => Tetrahedron | OfHexahedra => Hexahedron
  end.
Definition element_of (f : family) (o : order) : element :=
  match f, o with
  | OfSegments, Linear => Segment_Linear | OfSegments, Quadratic => Segment_Quadratic
  | OfTriangles, Linear => Triangle_Linear | OfTriangles, Quadratic => Triangle_Quadratic
  | OfQuads, Linear => Quad_Linear | OfQuads, Quadratic => Quad_Quadratic
  | OfTetrahedra, Linear => Tetrahedron_Linear | OfTetrahedra, Quadratic => Tetrahedron_Quadratic
  | OfHexahedra, Linear => Hexahedron_Linear | OfHexahedra, Quadratic => Hexahedron_Quadratic
  end.
Definition exists_in (f : family) (D : nat) : Prop :=
  match f with
  | OfSegments => D = 1 \/ D = 2 \/ D = 3
  | OfTriangles | OfQuads => D = 2 \/ D = 3
  | OfTetrahedra | OfHexahedra => D = 3
  end.
(** Points as the user writes them: one after the other, each in a way of its choice; or all of them in one array. *)
Definition separately (ks : list kind) (points : list (list R)) : list value :=
  map (fun kp => Arr (fst kp) (Vec (snd kp))) (combine ks points).
Definition together (k : kind) (n D : nat) (points : list (list R)) : value :=
  Arr k (Mat n D (fun i j => nth j (nth i points []) 0%R)).
(** All the numbers of the arguments, in reading order. *)
Definition numbers (v : value) : list R :=
  match v with
  | Float x => [x] | Int z => [IZR z]
  | Arr _ (Vec l) => l | Arr _ (Mat r c f) => concat (map (fun i => map (f i) (seq 0 c)) (seq 0 r))
  | _ => []
  end.
Definition without_numbers (v : value) : Prop := match v with DimensionV _ | OrderV _ => True | _ => False end.
(** The nodes of the reference element, in a space that may have more dimensions. *)
Definition reference_in (D : nat) (e : element) (nodes : list (list R)) : Prop :=
  table (NumberOfNodes e) D nodes /\
  forall i j, i < NumberOfNodes e -> j < D -> nth j (nth i nodes []) 0%R = nth j (nth i (canonical_nodes e) []) 0%R.
(** A quadratic element with the geometry of a linear one. *)
Definition same_geometry (D : nat) (linear : element) (nodes : list (list R)) (quadratic : element) (nodes' : list (list R)) : Prop :=
  table (NumberOfNodes quadratic) D nodes' /\
  forall xi, length xi = CanonicalDimension linear -> world_coordinates D quadratic nodes' xi = world_coordinates D linear nodes xi.
