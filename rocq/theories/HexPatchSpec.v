(** Vocabulary for the patch test (C97) with quadratic hexahedra that are not parallelepipeds. *)

From Coq Require Import Reals List Arith.
From Coq Require Import List.
From Verif Require Import GridGeoModel ShapeModel LinAlg BarycentricModel MaterialSpec HyperModel HyperSpec EnergySpec PatchSpec.
Import ListNotations.
Open Scope R_scope.

(** The twelve edges of a quadratic hexahedron: the node in the middle, and the two ends. *)
Definition edges : list (nat * (nat * nat)) :=
  [ (8, (0, 1)); (9, (1, 2)); (10, (2, 3)); (11, (3, 0)); (12, (4, 5)); (13, (5, 6)); (14, (6, 7)); (15, (7, 4)); (16, (0, 4)); (17, (1, 5)); (18, (2, 6)); (19, (3, 7)) ]%nat.
(** The nodes in the middle of the edges are halfway between the ends.  The eight corners may be anywhere. *)
Definition straight_edges (d : domain) (row : list nat) : Prop :=
  forall m i j, In (m, (i, j)) edges ->
    nth m (nodes_of_element d row) [] = vscale (1/2) (vadd (nth i (nodes_of_element d row) []) (nth j (nodes_of_element d row) [])).

(** Integral over such a face, plane or not, of the shape function of its first node times the normal vector. *)
Definition bilinear_share (X : nat -> list R) (f : bool * list nat) : list R :=
  let x i := X (nth i (snd f) 0%nat) in
  let edge i j := vminus (x j) (x i) in
  match length (snd f), fst f with
  | 8%nat, true =>
      vscale (-1/36) (vadd (vadd (vcross (edge 0%nat 2%nat) (edge 2%nat 4%nat)) (vcross (edge 6%nat 4%nat) (edge 0%nat 6%nat))) (vcross (edge 6%nat 4%nat) (edge 2%nat 4%nat)))
  | 8%nat, false =>
      vadd (vscale (1/9) (vadd (vcross (edge 7%nat 1%nat) (edge 7%nat 5%nat)) (vcross (edge 7%nat 1%nat) (edge 1%nat 3%nat))))
           (vscale (1/18) (vadd (vcross (edge 5%nat 3%nat) (edge 7%nat 5%nat)) (vcross (edge 5%nat 3%nat) (edge 1%nat 3%nat))))
  | _, _ => []
  end.
Definition bilinear_shares (d : domain) (l : list (bool * list nat)) (k : nat) : R := Rsum (map (fun f => nth k (bilinear_share (site d) f) 0) l).
