(** Vocabulary for the patch test (C97): the nodes inside a mesh, and the shares of the faces around a node. *)

From Coq Require Import Reals List Arith Permutation.
From Coq Require Import List.
From Verif Require Import GridGeoModel ShapeModel LinAlg BarycentricModel MaterialSpec HyperModel HyperSpec EnergySpec.
From Verif Require CorotModel.
Import ListNotations.
Open Scope R_scope.

(** Faces of the volumetric elements; the nodes of a face are listed while going round it, counterclockwise for someone
    outside the element. *)
Definition faces (e : element) : list (list nat) :=
  (match e with
  | Tetrahedron_Linear => [ [0; 2; 1]; [0; 1; 3]; [0; 3; 2]; [1; 2; 3] ]
  | Tetrahedron_Quadratic => [ [0; 6; 2; 5; 1; 4]; [0; 4; 1; 8; 3; 7]; [0; 7; 3; 9; 2; 6]; [1; 5; 2; 9; 3; 8] ]
  | Hexahedron_Linear => [ [0; 3; 2; 1]; [4; 5; 6; 7]; [0; 1; 5; 4]; [1; 2; 6; 5]; [2; 3; 7; 6]; [3; 0; 4; 7] ]
  | Hexahedron_Quadratic =>
      [ [0; 11; 3; 10; 2; 9; 1; 8]; [4; 12; 5; 13; 6; 14; 7; 15]; [0; 8; 1; 17; 5; 12; 4; 16];
        [1; 9; 2; 18; 6; 13; 5; 17]; [2; 10; 3; 19; 7; 14; 6; 18]; [3; 11; 0; 16; 4; 15; 7; 19] ]
  | _ => []
  end)%nat.
(** Corner, or middle of an edge? *)
Definition corner (e : element) (a : nat) : bool :=
  match e with Tetrahedron_Linear | Tetrahedron_Quadratic => Nat.ltb a 4 | _ => Nat.ltb a 8 end.

(** The faces of an element around its node a, listed from a. *)
Definition faces_around (e : element) (a : nat) : list (list nat) :=
  flat_map (fun f => flat_map (fun i => if Nat.eqb (nth i f 0%nat) a then [skipn i f ++ firstn i f] else []) (seq 0 (length f))) (faces e).
(** All the faces around the node p of a mesh, with the nodes of the mesh. *)
Definition link (d : domain) (p : nat) : list (bool * list nat) :=
  flat_map (fun row => flat_map (fun a =>
      if Nat.eqb (nth a row 0%nat) p then map (fun f => (corner (kind d) a, map (fun i => nth i row 0%nat) f)) (faces_around (kind d) a) else [])
    (seq 0 (NumberOfNodes (kind d)))) (connectivity d).
(** The same face seen from the other side. *)
Definition other_side (f : bool * list nat) : bool * list nat :=
  (fst f, match snd f with [] => [] | p :: others => p :: rev others end).
(** Every face is there as often from one side as from the other: the elements fit together. *)
Definition paired (l : list (bool * list nat)) : Prop := Permutation l (map other_side l).
(** The elements around p fit together and leave no face of p uncovered. *)
Definition interior (d : domain) (p : nat) : Prop := paired (link d p).

(** The elements are all numbered in the same sense: s is 1, or -1 if they are all turned inside out. *)
Definition numbered_alike (d : domain) (s : R) : Prop :=
  (s = 1 \/ s = -1) /\ Forall (fun row => Forall (fun g => 0 < s * local_volume d row (fst g)) (gauss_nodes (kind d))) (connectivity d).
(** Quadratic elements with plane faces and regularly spaced nodes: images of the reference element by an affine map. *)
Definition straight (d : domain) (row : list nat) : Prop :=
  exists t M, length t = 3%nat /\ matrix3 M /\ nodes_of_element d row = placed t M (canonical_nodes (kind d)).
(** The meshes of the force field whose quadratic elements, if any, are straight. *)
Definition patchable (d : domain) : Prop :=
  match kind d with
  | Tetrahedron_Linear | Hexahedron_Linear => True
  | Tetrahedron_Quadratic | Hexahedron_Quadratic => forall row, In row (connectivity d) -> straight d row
  | _ => False
  end.

(** Integral over a face of the shape function of its first node times the unit vector normal to the face, X giving the
    positions of the nodes.  A triangle; a quadrilateral, plane or not; and straight quadratic triangles and parallelograms,
    where the shape function of a corner has the integrals 0 and -1/12 of the area, and that of a middle 1/3 of the area. *)
Definition share (X : nat -> list R) (f : bool * list nat) : list R :=
  let x i := X (nth i (snd f) 0%nat) in
  let edge i j := vminus (x j) (x i) in
  match length (snd f), fst f with
  | 3%nat, _ => vscale (1/6) (vcross (edge 0%nat 1%nat) (edge 0%nat 2%nat))
  | 4%nat, _ =>
      vadd (vadd (vscale (1/9) (vcross (edge 0%nat 1%nat) (edge 0%nat 3%nat))) (vscale (1/18) (vcross (edge 0%nat 1%nat) (edge 1%nat 2%nat))))
           (vadd (vscale (1/18) (vcross (edge 3%nat 2%nat) (edge 0%nat 3%nat))) (vscale (1/36) (vcross (edge 3%nat 2%nat) (edge 1%nat 2%nat))))
  | 6%nat, true => [0; 0; 0]
  | 6%nat, false => vscale (1/6) (vcross (edge 1%nat 3%nat) (edge 1%nat 5%nat))
  | 8%nat, true => vscale (-1/24) (vcross (edge 0%nat 4%nat) (edge 2%nat 6%nat))
  | 8%nat, false => vscale (1/6) (vcross (edge 1%nat 5%nat) (edge 3%nat 7%nat))
  | _, _ => []
  end.

(** The mesh of a corotational force field as a domain; the meshes whose integration rule is exact: all of them, except that
    hexahedra with one integration point must be parallelepipeds. *)
Definition body (m : CorotModel.mesh) : domain :=
  {| dim := 3; kind := CorotModel.kind_of_elements (CorotModel.type m); positions := CorotModel.x0 m; connectivity := CorotModel.elements m |}.
Definition exactly_integrated (m : CorotModel.mesh) : Prop :=
  match CorotModel.type m with
  | CorotModel.HexahedronElastic true => forall row, In row (CorotModel.elements m) -> straight (body m) row
  | _ => True
  end.

(** Position of a node; total share of the faces of a list. *)
Definition site (d : domain) (i : nat) : list R := nth i (positions d) [0; 0; 0].
Definition shares (d : domain) (l : list (bool * list nat)) (k : nat) : R := Rsum (map (fun f => nth k (share (site d) f) 0) l).
(** Hooke's law for a displacement of constant gradient A: lambda tr(A) I + mu (A + A^T). *)
Definition linear_stress (E nu : R) (A : nat -> nat -> R) (i j : nat) : R :=
  E * nu / ((1 + nu) * (1 - 2 * nu)) * (A 0%nat 0%nat + A 1%nat 1%nat + A 2%nat 2%nat) * (if Nat.eqb i j then 1 else 0) + E / (2 * (1 + nu)) * (A i j + A j i).
