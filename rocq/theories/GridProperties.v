(** C01-C05: numbering, corners, conformity, edges and faces of regular grids.
    Vocabulary: GridSpec.v.  Model: GridModel.v.  Proofs: GridProofs.v. *)

From Coq Require Import ZArith List Lia.
From Verif Require Import GridModel GridSpec GridProofs.
Import ListNotations.
Open Scope Z_scope.

(** * C01: the flat index and the integer coordinates determine each other. *)

Theorem C01_cells_1d : forall nx, 0 < nx ->
  mutually_inverse (below nx) (below (number_of_cells1 nx)) cell_index_at1 cell_coordinates_at1.
Proof. exact cells1_inverse. Qed.
Print Assumptions C01_cells_1d.

Theorem C01_nodes_1d : forall nx, 0 < nx ->
  mutually_inverse (below (nx + 1)) (below (number_of_nodes1 nx)) node_index_at1 node_coordinates_at1.
Proof. exact nodes1_inverse. Qed.
Print Assumptions C01_nodes_1d.

Theorem C01_cells_2d : forall nx ny, 0 < nx -> 0 < ny ->
  mutually_inverse (box2 nx ny) (below (number_of_cells2 nx ny))
                   (cell_index_at2 nx) (cell_coordinates_at2 nx).
Proof. exact cells2_inverse. Qed.
Print Assumptions C01_cells_2d.

Theorem C01_nodes_2d : forall nx ny, 0 < nx -> 0 < ny ->
  mutually_inverse (box2 (nx + 1) (ny + 1)) (below (number_of_nodes2 nx ny))
                   (node_index_at2 nx) (node_coordinates_at2 nx).
Proof. exact nodes2_inverse. Qed.
Print Assumptions C01_nodes_2d.

Theorem C01_cells_3d : forall nx ny nz, 0 < nx -> 0 < ny -> 0 < nz ->
  mutually_inverse (box3 nx ny nz) (below (number_of_cells3 nx ny nz))
                   (cell_index_at3 nx ny) (cell_coordinates_at3 nx ny).
Proof. exact cells3_inverse. Qed.
Print Assumptions C01_cells_3d.

Theorem C01_nodes_3d : forall nx ny nz, 0 < nx -> 0 < ny -> 0 < nz ->
  mutually_inverse (box3 (nx + 1) (ny + 1) (nz + 1)) (below (number_of_nodes3 nx ny nz))
                   (node_index_at3 nx ny) (node_coordinates_at3 nx ny).
Proof. exact nodes3_inverse. Qed.
Print Assumptions C01_nodes_3d.

Example C01_witness :
  cell_index_at3 3 4 (2, 1, 1) = 17 /\ cell_coordinates_at3 3 4 17 = (2, 1, 1) /\
  node_index_at3 3 4 (2, 1, 1) = 26 /\ node_coordinates_at3 3 4 26 = (2, 1, 1) /\
  node_index_at2 3 (2, 1) = 6 /\ node_coordinates_at2 3 6 = (2, 1).
Proof. vm_compute. repeat split; reflexivity. Qed.

(** * C02: cells list their own corners, in canonical order, all valid and distinct. *)

Theorem C02_corners_1d : forall nx cell, 0 < nx -> below (number_of_cells1 nx) cell ->
  node_indices_of1 cell = map node_index_at1 [cell_coordinates_at1 cell; cell_coordinates_at1 cell + 1]
  /\ Forall (below (number_of_nodes1 nx)) (node_indices_of1 cell)
  /\ NoDup (node_indices_of1 cell).
Proof. exact corners1. Qed.
Print Assumptions C02_corners_1d.

Theorem C02_corners_2d : forall nx ny cell, 0 < nx -> 0 < ny -> below (number_of_cells2 nx ny) cell ->
  node_indices_of2 nx cell =
    map (node_index_at2 nx) (map (shift2 (cell_coordinates_at2 nx cell)) corner2)
  /\ Forall (box2 (nx + 1) (ny + 1)) (map (shift2 (cell_coordinates_at2 nx cell)) corner2)
  /\ Forall (below (number_of_nodes2 nx ny)) (node_indices_of2 nx cell)
  /\ NoDup (node_indices_of2 nx cell).
Proof. exact corners2. Qed.
Print Assumptions C02_corners_2d.

Theorem C02_corners_3d : forall nx ny nz cell, 0 < nx -> 0 < ny -> 0 < nz ->
  below (number_of_cells3 nx ny nz) cell ->
  node_indices_of3 nx ny cell =
    map (node_index_at3 nx ny) (map (shift3 (cell_coordinates_at3 nx ny cell)) corner3)
  /\ Forall (box3 (nx + 1) (ny + 1) (nz + 1)) (map (shift3 (cell_coordinates_at3 nx ny cell)) corner3)
  /\ Forall (below (number_of_nodes3 nx ny nz)) (node_indices_of3 nx ny cell)
  /\ NoDup (node_indices_of3 nx ny cell).
Proof. exact corners3. Qed.
Print Assumptions C02_corners_3d.

Example C02_witness :
  below (number_of_cells3 3 4 2) 17 /\
  node_indices_of3 3 4 17 = [26; 27; 31; 30; 46; 47; 51; 50].
Proof. vm_compute. repeat split; congruence. Qed.

(** * C03: two (cell, corner) pairs list the same node iff they are the same lattice point. *)

Theorem C03_conforming_1d : forall nx c c' n, 0 < nx ->
  below (number_of_cells1 nx) c -> below (number_of_cells1 nx) c' ->
  In n (node_indices_of1 c) -> In n (node_indices_of1 c') ->
  c = c' \/ (c' = c + 1 /\ n = c + 1) \/ (c = c' + 1 /\ n = c' + 1).
Proof. exact nodes1_shared. Qed.
Print Assumptions C03_conforming_1d.

Theorem C03_same_point_1d : forall nx, 0 < nx -> forall c c' k k' v v' n n',
  below (number_of_cells1 nx) c -> below (number_of_cells1 nx) c' ->
  nth_error [0; 1] k = Some v -> nth_error [0; 1] k' = Some v' ->
  nth_error (node_indices_of1 c) k = Some n -> nth_error (node_indices_of1 c') k' = Some n' ->
  (n = n' <-> cell_coordinates_at1 c + v = cell_coordinates_at1 c' + v').
Proof.
  intros nx _ c c' k k' v v' n n' _ _ Hv Hv' Hn Hn'. unfold node_indices_of1, cell_coordinates_at1 in *.
  destruct k as [|[|k]]; destruct k' as [|[|k']]; cbn in *; repeat match goal with H : Some _ = Some _ |- _ => injection H as <- | H : nth_error [] ?i = Some _ |- _ => destruct i; discriminate H end; lia.
Qed.
Print Assumptions C03_same_point_1d.

Theorem C03_conforming_2d : forall nx ny, 0 < nx -> 0 < ny ->
  forall c c' k k' v v' n n',
  below (number_of_cells2 nx ny) c -> below (number_of_cells2 nx ny) c' ->
  nth_error corner2 k = Some v -> nth_error corner2 k' = Some v' ->
  nth_error (node_indices_of2 nx c) k = Some n -> nth_error (node_indices_of2 nx c') k' = Some n' ->
  (n = n' <-> shift2 (cell_coordinates_at2 nx c) v = shift2 (cell_coordinates_at2 nx c') v').
Proof. exact conforming2. Qed.
Print Assumptions C03_conforming_2d.

Theorem C03_conforming_3d : forall nx ny nz, 0 < nx -> 0 < ny -> 0 < nz ->
  forall c c' k k' v v' n n',
  below (number_of_cells3 nx ny nz) c -> below (number_of_cells3 nx ny nz) c' ->
  nth_error corner3 k = Some v -> nth_error corner3 k' = Some v' ->
  nth_error (node_indices_of3 nx ny c) k = Some n -> nth_error (node_indices_of3 nx ny c') k' = Some n' ->
  (n = n' <-> shift3 (cell_coordinates_at3 nx ny c) v = shift3 (cell_coordinates_at3 nx ny c') v').
Proof. exact conforming3. Qed.
Print Assumptions C03_conforming_3d.

(** Cells 16 and 17 of a 3x4x2 grid share the lattice point (2,2,1): corner 2 of the
    first, corner 3 of the second. *)
Example C03_witness :
  nth_error (node_indices_of3 3 4 16) 2 = Some 30 /\
  nth_error (node_indices_of3 3 4 17) 3 = Some 30 /\
  nth_error corner3 2 = Some (1, 1, 0) /\ nth_error corner3 3 = Some (0, 1, 0) /\
  shift3 (cell_coordinates_at3 3 4 16) (1, 1, 0) = (2, 2, 1) /\
  shift3 (cell_coordinates_at3 3 4 17) (0, 1, 0) = (2, 2, 1).
Proof. vm_compute. repeat split; reflexivity. Qed.

(** * C04: edge(i), i in [0, number_of_edges()), enumerates exactly the unit lattice edges. *)

Theorem C04_edges_2d : forall nx ny, 0 < nx -> 0 < ny ->
  enumerates (number_of_edges2 nx ny) (edge2 nx)
             (fun e => (node_index_at2 nx (fst e), node_index_at2 nx (snd e)))
             (fun e => unit_edge2 nx ny (fst e) (snd e)).
Proof. exact edges2_enumeration. Qed.
Print Assumptions C04_edges_2d.

Theorem C04_edges_3d : forall nx ny nz, 0 < nx -> 0 < ny -> 0 < nz ->
  enumerates (number_of_edges3 nx ny nz) (edge3 nx ny)
             (fun e => (node_index_at3 nx ny (fst e), node_index_at3 nx ny (snd e)))
             (fun e => unit_edge3 nx ny nz (fst e) (snd e)).
Proof. exact edges3_enumeration. Qed.
Print Assumptions C04_edges_3d.

Example C04_witness :
  number_of_edges3 3 4 2 = 133 /\
  edge3 3 4 132 = (58, 59) /\
  edge3 3 4 31 = (0, 20) /\
  unit_edge3 3 4 2 (2, 4, 2) (3, 4, 2) /\
  node_index_at3 3 4 (2, 4, 2) = 58.
Proof.
  do 3 (split; [vm_compute; reflexivity|]). split; [|reflexivity].
  unfold unit_edge3, box3, below, shift3. simpl.
  split; [lia|]. split; [lia|]. left; reflexivity.
Qed.

(** * C05: face(i), i in [0, number_of_faces()), enumerates exactly the unit lattice squares. *)

Theorem C05_faces_3d : forall nx ny nz, 0 < nx -> 0 < ny -> 0 < nz ->
  enumerates (number_of_faces3 nx ny nz) (face3 nx ny)
             (map (node_index_at3 nx ny)) (unit_square3 nx ny nz).
Proof. exact faces3_enumeration. Qed.
Print Assumptions C05_faces_3d.

Example C05_witness :
  number_of_faces3 3 4 2 = 98 /\
  face3 3 4 97 = [54; 55; 59; 58] /\
  face3 3 4 30 = [3; 7; 27; 23] /\
  unit_square3 3 4 2 [(3,0,0); (3,1,0); (3,1,1); (3,0,1)].
Proof.
  repeat split; try reflexivity.
  exists (3,0,0), (0,1,0), (0,0,1). split; [auto|]. split; [reflexivity|].
  repeat constructor; unfold below; lia.
Qed.
