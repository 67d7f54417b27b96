(** Vocabulary for the grids used from Python: how arguments may be written, and the numbering of a regular grid. *)

From Coq Require Import String ZArith Reals List Arith Bool.
From Flocq Require Import Core.Raux.
From Verif Require Import GridGeoModel GridGeoSpec PyGridModel.
Import ListNotations.
Open Scope nat_scope.

(** The argument is made of these numbers: a list or a tuple, or a numpy array of any type. *)
Definition written (v : value) (l : list R) : Prop := v = VList l \/ exists d, v = VArray d l.
(** Made of these integers, which fit in 64 bits. *)
Definition integers (v : value) (c : list Z) : Prop := written v (map IZR c) /\ Forall (fun i => (- 2 ^ 63 <= i < 2 ^ 63)%Z) c.
(** A grid of dimension 2 or 3 with positive sizes and numbers of cells, and at most 2^63 nodes. *)
Definition usual (g : grid) : Prop :=
  valid_grid g /\ (length g = 2 \/ length g = 3) /\ (fold_right Z.mul 1 (map (fun a => ax_n a + 1) g) <= 2 ^ 63)%Z.
(** Rank of the coordinates [c] in a box with [ns] places along each axis, the first axis running fastest. *)
Fixpoint rank (ns c : list Z) : Z := match ns, c with n :: ns, i :: c => (i + n * rank ns c)%Z | _, _ => 0%Z end.
Definition cells (g : grid) : list Z := map ax_n g.
Definition nodes (g : grid) : list Z := map (fun a => (ax_n a + 1)%Z) g.
Definition product (ns : list Z) : Z := fold_right Z.mul 1%Z ns.
(** Position of the node with coordinates [c]. *)
Definition position (g : grid) (c : list Z) : list R := map2 plane g c.
(** The corners of a square or of a cube, around the lower side, then around the upper one. *)
Definition square_corners : list (list Z) := [[0; 0]; [1; 0]; [1; 1]; [0; 1]]%Z.
Definition corners (D : nat) : list (list Z) :=
  if D =? 2 then square_corners else map (fun c => c ++ [0%Z]) square_corners ++ map (fun c => c ++ [1%Z]) square_corners.
Definition plus (c d : list Z) : list Z := map2 Z.add c d.
(** The segments between neighbouring nodes, and the unit squares, by the coordinates of their ends and corners. *)
Definition directions (D : nat) : list (list Z) := if D =? 2 then [[1; 0]; [0; 1]]%Z else [[1; 0; 0]; [0; 1; 0]; [0; 0; 1]]%Z.
Definition lattice_edge (g : grid) (e : list Z * list Z) : Prop :=
  node_of g (fst e) /\ node_of g (snd e) /\ exists u, In u (directions (length g)) /\ snd e = plus (fst e) u.
Definition lattice_square (g : grid) (sq : list (list Z)) : Prop :=
  Forall (node_of g) sq /\
  exists a u v, In (u, v) [([1; 0; 0], [0; 1; 0]); ([1; 0; 0], [0; 0; 1]); ([0; 1; 0], [0; 0; 1])]%Z /\
    sq = [a; plus a u; plus (plus a u) v; plus a v].

(** Arguments that stand for an integer: an integer, a boolean, a numpy array with a single entry. *)
Inductive stands_for : value -> Z -> Prop :=
| an_integer : forall z, stands_for (VInt z) z
| a_true : stands_for (VBool true) 1
| a_false : stands_for (VBool false) 0
| an_entry : forall d x, stands_for (VArray d [x]) (Ztrunc x).
Definition index_argument (v : value) : Prop := exists z, stands_for v z /\ (- 2 ^ 63 <= z < 2 ^ 63)%Z.
Definition unsigned_argument (v : value) : Prop := exists z, stands_for v z /\ (0 <= z < 2 ^ 64)%Z.
Definition vector_argument (D : nat) (v : value) : Prop := exists l, written v l /\ length l = D.
(** Arguments with a truth value, arguments that are a number. *)
Definition truth_argument (v : value) : Prop :=
  match v with VBool _ | VNone | VInt _ | VFloat _ | VArray _ [_] => True | _ => False end.
Definition number_argument (v : value) : Prop :=
  match v with VBool _ | VInt _ | VFloat _ | VArray _ [_] => True | _ => False end.
Local Open Scope string_scope.
(** The calls that a grid of dimension [D] answers, apart from cell_at. *)
Inductive answered (D : nat) : string -> list value -> Prop :=
| no_argument : forall name,
    In name ["number_of_cells"; "number_of_nodes"; "anchor_position"; "N"; "H"; "size"; "number_of_edges"] -> answered D name []
| number_of_faces_3d : D = 3 -> answered D "number_of_faces" []
| a_point : forall name v, In name ["cell_index_containing"; "cells_around"; "contains"] -> vector_argument D v -> answered D name [v]
| a_point_and_a_truth_value : forall v b, vector_argument D v -> truth_argument b -> answered D "cell_index_containing" [v; b]
| a_point_and_a_number : forall v e, vector_argument D v -> number_argument e -> answered D "contains" [v; e]
| coordinates : forall name v, In name ["node_index_at"; "cell_index_at"; "node_indices_of"] -> vector_argument D v -> answered D name [v]
| an_index : forall name v,
    In name ["node_coordinates_at"; "node"; "cell_coordinates_at"; "node_indices_of"] -> index_argument v -> answered D name [v]
| an_edge : forall v, unsigned_argument v -> answered D "edge" [v]
| a_face : forall v, D = 3 -> unsigned_argument v -> answered D "face" [v].

(** Hash grids: the call of add that gives an element of the class [c] with these nodes the number [id]. *)
Definition adds_element (c : cpp_class) (nodes : list (list R)) (id : Z) (vs : list value) : Prop :=
  exists w, vs = [VElement c nodes; w] /\ stands_for w id /\ (0 <= id < 2 ^ 64)%Z.
(** Elements have nodes, in space. *)
Definition in_space (v : value) : Prop :=
  match v with VElement _ nodes => nodes <> [] /\ Forall (fun n => length n = 3) nodes | _ => True end.
