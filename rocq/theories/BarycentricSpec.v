(** Vocabulary for embedded points (C31, C32). *)

From Coq Require Import ZArith Reals List.
From Verif Require Import GridGeoModel HashGridModel ShapeModel ShapeSpec LinAlg RectModel RectSpec BarycentricModel.
Import ListNotations.
Open Scope R_scope.

(** A mesh of non degenerate affine elements of one of the five linear types whose local coordinates are iterative. *)
Definition linear_type (e : element) : Prop :=
  In e [Segment_Linear; Triangle_Linear; Quad_Linear; Tetrahedron_Linear; Hexahedron_Linear].
Definition affine_domain (d : domain) : Prop :=
  linear_type (kind d) /\ Forall (fun p => length p = dim d) (positions d) /\
  Forall (fun row => length row = NumberOfNodes (kind d) /\ Forall (fun i => (i < length (positions d))%nat) row) (connectivity d) /\
  Forall (fun nodes => exists x0 E, affine_element (dim d) (kind d) nodes x0 E /\ independent (CanonicalDimension (kind d)) E)
         (elements d).

(** The elements fill the space they live in: segments on a line, triangles in the plane, tetrahedra in space... *)
Definition volumetric (d : domain) : Prop := dim d = CanonicalDimension (kind d).

(** Position of the local point xi of the element number id. *)
Definition world_position (d : domain) (id : nat) (xi : list R) : list R :=
  world_coordinates (dim d) (kind d) (nth id (elements d) []) xi.

(** Squared distance between two points. *)
Definition distance_2 (a b : list R) : R := Rsum (map2 (fun x y => (x - y) * (x - y)) a b).

(** p is a point of the (closed) element number id. *)
Definition point_of_element (d : domain) (id : nat) (p : list R) : Prop :=
  (id < length (connectivity d))%nat /\
  exists xi, in_reference (kind d) 0 xi /\ p = world_position d id xi.

(** Two triangles making the unit square. *)
Definition unit_square_triangles : domain :=
  {| dim := 2; kind := Triangle_Linear; positions := [[0; 0]; [1; 0]; [1; 1]; [0; 1]];
     connectivity := [[0%nat; 1%nat; 2%nat]; [0%nat; 2%nat; 3%nat]] |}.
