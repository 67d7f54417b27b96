(** Vocabulary for C103: the same body described by another mesh. *)

From Coq Require Import Reals List Arith Permutation.
From Verif Require Import ShapeModel LinAlg RectModel BarycentricModel MaterialModel.
From Verif Require CorotModel.
Import ListNotations.
Open Scope R_scope.

(** ** Another numbering of the nodes: the node i becomes the node s(i), and t is the inverse of s. *)
Definition renumbering (N : nat) (s t : nat -> nat) : Prop :=
  forall i, (i < N)%nat -> (s i < N /\ t i < N)%nat /\ t (s i) = i /\ s (t i) = i.
(** A vector per node, in the order of the new numbers. *)
Definition renumbered (N : nat) (t : nat -> nat) (x : list (list R)) : list (list R) := map (fun i => nth (t i) x []) (seq 0 N).
Definition renumbered_mesh (s t : nat -> nat) (d : domain) : domain :=
  {| dim := dim d; kind := kind d; positions := renumbered (length (positions d)) t (positions d); connectivity := map (map s) (connectivity d) |}.

(** ** Another listing of the nodes of an element.
    A symmetry of the reference element is an affine map of the reference element onto itself that carries the node a to
    the node [order a].  Below, generators of the 24 symmetries of the tetrahedron and of the 48 symmetries of the
    hexahedron (mirrors included). *)
Record symmetry := { order : list nat; turn : list (list R); shift : list R }.
Definition carried (s : symmetry) (xi : list R) : list R := vadd (matvec (turn s) xi) (shift s).

(** (1 - u - v - w, v, w) and (1 - u - v - w, u, v) *)
Definition swap_of_corners : list (list R) := [[-1; -1; -1]; [0; 1; 0]; [0; 0; 1]].
Definition cycle_of_corners : list (list R) := [[-1; -1; -1]; [1; 0; 0]; [0; 1; 0]].
(** (-v, u, w), (u, -w, v) and (-u, v, w) *)
Definition quarter_turn_w : list (list R) := [[0; -1; 0]; [1; 0; 0]; [0; 0; 1]].
Definition quarter_turn_u : list (list R) := [[1; 0; 0]; [0; 0; -1]; [0; 1; 0]].
Definition mirror_u : list (list R) := [[-1; 0; 0]; [0; 1; 0]; [0; 0; 1]].

Definition symmetries (e : element) : list symmetry :=
  match e with
  | Tetrahedron_Linear =>
      [ {| order := [1; 0; 2; 3]%nat; turn := swap_of_corners; shift := [1; 0; 0] |};
        {| order := [1; 2; 3; 0]%nat; turn := cycle_of_corners; shift := [1; 0; 0] |} ]
  | Tetrahedron_Quadratic =>
      [ {| order := [1; 0; 2; 3; 4; 6; 5; 8; 7; 9]%nat; turn := swap_of_corners; shift := [1; 0; 0] |};
        {| order := [1; 2; 3; 0; 5; 9; 8; 4; 6; 7]%nat; turn := cycle_of_corners; shift := [1; 0; 0] |} ]
  | Hexahedron_Linear =>
      [ {| order := [1; 2; 3; 0; 5; 6; 7; 4]%nat; turn := quarter_turn_w; shift := [0; 0; 0] |};
        {| order := [3; 2; 6; 7; 0; 1; 5; 4]%nat; turn := quarter_turn_u; shift := [0; 0; 0] |};
        {| order := [1; 0; 3; 2; 5; 4; 7; 6]%nat; turn := mirror_u; shift := [0; 0; 0] |} ]
  | Hexahedron_Quadratic =>
      [ {| order := [1; 2; 3; 0; 5; 6; 7; 4; 9; 10; 11; 8; 13; 14; 15; 12; 17; 18; 19; 16]%nat; turn := quarter_turn_w; shift := [0; 0; 0] |};
        {| order := [3; 2; 6; 7; 0; 1; 5; 4; 10; 18; 14; 19; 8; 17; 12; 16; 11; 9; 13; 15]%nat; turn := quarter_turn_u; shift := [0; 0; 0] |};
        {| order := [1; 0; 3; 2; 5; 4; 7; 6; 8; 11; 10; 9; 12; 15; 14; 13; 17; 16; 19; 18]%nat; turn := mirror_u; shift := [0; 0; 0] |} ]
  | _ => []
  end.

(** The same element, its nodes listed in another order allowed by the symmetries of the reference element. *)
Inductive relisted (e : element) (row : list nat) : list nat -> Prop :=
  | as_it_is : relisted e row row
  | one_more : forall row' s, In s (symmetries e) -> relisted e row row' ->
      relisted e row (map (fun a => nth a row' 0%nat) (order s)).

(** The same nodes and the same elements, in another order and with their nodes listed otherwise. *)
Definition same_elements (d d' : domain) : Prop :=
  dim d' = dim d /\ kind d' = kind d /\ positions d' = positions d /\
  exists rows, Forall2 (relisted (kind d)) (connectivity d) rows /\ Permutation rows (connectivity d').

(** ** The meshes of the corotational force fields: the same elements in another order, other numbers for the nodes. *)
Definition reordered (m m' : CorotModel.mesh) : Prop :=
  CorotModel.type m' = CorotModel.type m /\ CorotModel.x0 m' = CorotModel.x0 m /\ Permutation (CorotModel.elements m) (CorotModel.elements m').
Definition renumbered_elements (s t : nat -> nat) (m : CorotModel.mesh) : CorotModel.mesh :=
  {| CorotModel.type := CorotModel.type m; CorotModel.x0 := renumbered (length (CorotModel.x0 m)) t (CorotModel.x0 m); CorotModel.elements := map (map s) (CorotModel.elements m) |}.

(** Another listing and its orientation: 1 for a listing obtained by turning the element, -1 when it takes a mirror. *)
Inductive oriented (e : element) (row : list nat) : R -> list nat -> Prop :=
  | as_listed : oriented e row 1 row
  | one_symmetry : forall sigma row' s, In s (symmetries e) -> oriented e row sigma row' ->
      oriented e row (det (turn s) * sigma) (map (fun a => nth a row' 0%nat) (order s)).
(** The same nodes and the same elements, in another order, every element listed with the orientation sigma. *)
Definition listed_otherwise (sigma : R) (m m' : CorotModel.mesh) : Prop :=
  CorotModel.type m' = CorotModel.type m /\ CorotModel.x0 m' = CorotModel.x0 m /\
  exists rows, Forall2 (fun row row' => oriented (CorotModel.kind_of_elements (CorotModel.type m)) row sigma row') (CorotModel.elements m) rows /\
    Permutation rows (CorotModel.elements m').
