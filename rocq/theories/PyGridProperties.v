(** C95: the grids and the hash grids of the Python module Caribou.Topology.
    Vocabulary: PyGridSpec.v and GridGeoSpec.v.  Model: PyGridModel.v.  [imp] tells whether Caribou.Geometry has been imported. *)

From Coq Require Import String ZArith Reals Lra Lia List Arith Bool.
From Flocq Require Import Core.Raux.
From Verif Require Import GridModel GridSpec GridGeoModel GridGeoSpec GridMachModel GridMachProofs GridProofs GridGeoProofs
  HashGridModel HashGridProofs PyGridModel PyGridSpec PyGridProofs PyGridProofs2 PyGridProofs3 PyGridProofs4 PyGridProofs5.
Import ListNotations.
Open Scope nat_scope.
Local Open Scope string_scope.
Local Notation length := Datatypes.length.

(** A grid of 2 x 3 cells and one of 2 x 1 x 3 cells *)
Definition flat : grid := [Axis 1 2 1; Axis (-2) 3 6].
Definition solid : grid := [Axis 0 2 4; Axis 0 1 5; Axis (-1) 3 3].
Example C95_flat : usual flat.
Proof. split; [split; [cbn; lia|repeat constructor; cbn; lia || lra]|]. split; [left; reflexivity|]. vm_compute. discriminate. Qed.
Example C95_solid : usual solid.
Proof. split; [split; [cbn; lia|repeat constructor; cbn; lia || lra]|]. split; [right; reflexivity|]. vm_compute. discriminate. Qed.

Lemma getters : forall imp g, length g = 2 \/ length g = 3 ->
  call imp g "anchor_position" [] = Returns (VArray Float64 (map ax_anchor g)) /\
  call imp g "N" [] = Returns (VArray UInt64 (map IZR (map ax_n g))) /\
  call imp g "size" [] = Returns (VArray Float64 (map ax_size g)) /\
  call imp g "H" [] = Returns (VArray Float64 (map ax_H g)) /\
  call imp g "number_of_cells" [] = Returns (VInt (count_cells (subdivisions g))) /\
  call imp g "number_of_nodes" [] = Returns (VInt (count_nodes (subdivisions g))).
Proof.
  intros imp g [L|L]; [destruct (length2 _ _ L) as (a & b & ->)|destruct (length3 _ _ L) as (a & b & d & ->)]; repeat split.
Qed.

(** ** Making a grid *)
(** Whatever the way the three vectors are written, Grid2D and Grid3D make a grid that gives back exactly what it was made of. *)
Theorem C95_construct : forall D name av nv sv anchor n size,
  (D = 2 /\ name = "Grid2D" \/ D = 3 /\ name = "Grid3D") ->
  written av anchor -> written nv (map IZR n) -> written sv size -> length anchor = D -> length n = D -> length size = D ->
  Forall (fun k => (0 <= k < 2 ^ 64)%Z) n ->
  exists g, construct name [av; nv; sv] = Some g /\ map ax_anchor g = anchor /\ map ax_n g = n /\ map ax_size g = size /\
    (Forall (fun k => (0 < k)%Z) n -> Forall (fun s => (0 < s)%R) size -> (product (map Z.succ n) <= 2 ^ 63)%Z -> usual g) /\
    forall imp,
      call imp g "anchor_position" [] = Returns (VArray Float64 anchor) /\
      call imp g "N" [] = Returns (VArray UInt64 (map IZR n)) /\
      call imp g "size" [] = Returns (VArray Float64 size) /\
      call imp g "H" [] = Returns (VArray Float64 (map2 (fun s k => s / IZR k)%R size n)).
Proof.
  intros D name av nv sv anchor n size HD Wa Wn Ws La Ln Ls B. exists (map3 Axis anchor n size).
  destruct (axes_form D anchor n size La Ln Ls) as (L & E1 & E2 & E3).
  split. { apply (construct_given D); [exact HD|apply load_world; assumption|apply load_subdivisions; assumption|apply load_world; assumption]. }
  do 3 (split; [assumption|]). split.
  - intros N S P. apply (axes_usual D); [destruct HD as [[]|[]]; auto|assumption|rewrite E3; assumption|rewrite E2; assumption|rewrite E2; assumption].
  - intros imp. assert (HH : map ax_H (map3 Axis anchor n size) = map2 (fun s k => s / IZR k)%R size n).
    { clear -La Ln Ls. revert anchor n size La Ln Ls. induction D as [|D IH]; intros [|a anchor] [|k n] [|s size] A N S; try discriminate; [reflexivity|].
      cbn. rewrite (IH anchor n size) by (cbn in *; congruence). reflexivity. }
    destruct (getters imp (map3 Axis anchor n size)) as (G1 & G2 & G3 & G4 & _); [rewrite L; destruct HD as [[]|[]]; auto|].
    rewrite E1 in G1. rewrite E2 in G2. rewrite E3 in G3. rewrite HH in G4. auto.
Qed.
Print Assumptions C95_construct.
Example C95_construct_witness : exists g,
  construct "Grid3D" [VList [0; 0; -1]%R; VArray Int64 [2; 1; 3]%R; VList [4; 5; 3]%R] = Some g /\ g = solid.
Proof.
  exists (map3 Axis [0; 0; -1]%R [2; 1; 3]%Z [4; 5; 3]%R). split; [|reflexivity]. apply (construct_given 3); [right; split; reflexivity|reflexivity| |reflexivity].
  apply (load_subdivisions 3 _ [2; 1; 3]%Z); [right; eexists; reflexivity|repeat constructor; lia|reflexivity].
Qed.

(** There is no other constructor; in particular there is none for grids of dimension 1. *)
Theorem C95_constructors : forall name vs g, construct name vs = Some g ->
  (name = "Grid2D" /\ length g = 2 \/ name = "Grid3D" /\ length g = 3).
Proof.
  intros name vs g. unfold construct.
  assert (X : forall D, match match load_all false [PWorld D; PSubdivisions D; PWorld D] [] vs with
                          | Some l => Some l | None => load_all true [PWorld D; PSubdivisions D; PWorld D] [] vs end with
                        | Some [LWorld anchor; LSubdivisions n; LWorld size] => Some (make_axes anchor n size) | _ => None end = Some g -> length g = D).
  { intros D H. destruct (match load_all false _ [] vs with Some l => Some l | None => _ end) as [l|] eqn:E; [|discriminate].
    assert (E' : load_all true [PWorld D; PSubdivisions D; PWorld D] [] vs = Some l).
    { destruct (load_all false _ [] vs) eqn:F; [|exact E]. apply load_all_mono in F. congruence. }
    clear E. destruct vs as [|u [|v [|w [|]]]]; cbn [load_all] in E'; try discriminate.
    - destruct (load true (PWorld D) u); discriminate.
    - destruct (load true (PWorld D) u); [|discriminate]. destruct (load true (PSubdivisions D) v); discriminate.
    - destruct (load true (PWorld D) u) as [x|] eqn:E1; [|discriminate]. destruct (load true (PSubdivisions D) v) as [y|] eqn:E2; [|discriminate].
      destruct (load true (PWorld D) w) as [z|] eqn:E3; [|discriminate]. injection E' as <-. cbn [load] in E1, E2, E3.
      destruct (entries true Float64 D u) as [lu|] eqn:F1; [|discriminate]. destruct (entries true UInt64 D v) as [lv|] eqn:F2; [|discriminate].
      destruct (entries true Float64 D w) as [lw|] eqn:F3; [|discriminate]. injection E1 as <-. injection E2 as <-. injection E3 as <-. injection H as <-.
      apply entries_written in F1, F2, F3. destruct F1 as [_ F1], F2 as [_ F2], F3 as [_ F3].
      apply (axes_form D lu (map to_uint64 lv) lw); try assumption. rewrite map_length. assumption.
    - destruct (load true (PWorld D) u); [|discriminate]. destruct (load true (PSubdivisions D) v); [|discriminate].
      destruct (load true (PWorld D) w); discriminate. }
  destruct (String.eqb_spec name "Grid2D") as [->|_]; [intros H; left; split; [reflexivity|exact (X 2 H)]|].
  destruct (String.eqb_spec name "Grid3D") as [->|_]; [intros H; right; split; [reflexivity|exact (X 3 H)]|discriminate].
Qed.
Print Assumptions C95_constructors.

(** A number of cells with a fraction is truncated, and a negative one becomes a huge one: no exception. *)
Theorem C95_subdivisions_rounded_refuted : forall av sv anchor size, written av anchor -> written sv size -> length anchor = 2 -> length size = 2 ->
  (forall x y, (0 <= x < IZR (2 ^ 64))%R -> (0 <= y < IZR (2 ^ 64))%R -> exists g, construct "Grid2D" [av; VList [x; y]; sv] = Some g /\
     forall imp, call imp g "N" [] = Returns (VArray UInt64 [IZR (Zfloor x); IZR (Zfloor y)])) /\
  (forall k m, (0 < k < 2 ^ 63)%Z -> (0 < m < 2 ^ 63)%Z -> exists g, construct "Grid2D" [av; VList [IZR (- k); IZR m]; sv] = Some g /\
     forall imp, call imp g "N" [] = Returns (VArray UInt64 [IZR (2 ^ 64 - k); IZR m])).
Proof.
  intros av sv anchor size Wa Ws La Ls.
  assert (K : forall x y a b, to_uint64 x = a -> to_uint64 y = b -> exists g, construct "Grid2D" [av; VList [x; y]; sv] = Some g /\
     forall imp, call imp g "N" [] = Returns (VArray UInt64 [IZR a; IZR b])).
  { intros x y a b <- <-. eexists. split.
    - apply (construct_given 2); [left; split; reflexivity|apply load_world; eassumption|reflexivity|apply load_world; eassumption].
    - intros imp. destruct (length2 _ _ La) as (? & ? & ->). destruct (length2 _ _ Ls) as (? & ? & ->). reflexivity. }
  split.
  - intros x y Hx Hy. apply K; unfold to_uint64; (rewrite Ztrunc_floor by lra);
      (rewrite u64_small; [reflexivity|split; [apply Zfloor_lub; lra|]]); apply lt_IZR; eapply Rle_lt_trans; [apply Zfloor_lb|lra|apply Zfloor_lb|lra].
  - intros k m Hk Hm. pose proof fits_u. apply K; unfold to_uint64; rewrite Ztrunc_IZR; [|apply u64_small; lia].
    rewrite <- (u64_small (2 ^ 64 - k)) by lia. unfold u64. rewrite <- (Z_mod_plus_full (- k) 1). f_equal. lia.
Qed.
Print Assumptions C95_subdivisions_rounded_refuted.

(** ** Numbering *)
Theorem C95_counts : forall imp g, usual g ->
  call imp g "number_of_cells" [] = Returns (VInt (product (cells g))) /\
  call imp g "number_of_nodes" [] = Returns (VInt (product (nodes g))).
Proof. intros imp g U. destruct (counts g U) as [E1 E2]. rewrite <- E1, <- E2. apply getters, U. Qed.
Print Assumptions C95_counts.

(** The cells are numbered from 0 to number_of_cells() - 1 by the rank of their coordinates; the two methods are inverse of each other. *)
Theorem C95_cells : forall imp g, usual g ->
  (forall c v, cell_of g c -> integers v c ->
     call imp g "cell_index_at" [v] = Returns (VInt (rank (cells g) c)) /\
     call imp g "cell_coordinates_at" [VInt (rank (cells g) c)] = Returns (VArray Int64 (map IZR c))) /\
  (forall c, cell_of g c -> (0 <= rank (cells g) c < product (cells g))%Z) /\
  (forall i, (0 <= i < product (cells g))%Z -> exists c, cell_of g c /\ rank (cells g) c = i).
Proof.
  intros imp g U. split; [|split].
  - intros c v C W. apply cell_calls; assumption.
  - intros c C. apply rank_below, cell_of_cells. assumption.
  - intros i Hi. apply cells_onto; assumption.
Qed.
Print Assumptions C95_cells.
(** Same for the nodes, and node(index) is the position of the node. *)
Theorem C95_nodes : forall imp g, usual g ->
  (forall c v, node_of g c -> integers v c ->
     call imp g "node_index_at" [v] = Returns (VInt (rank (nodes g) c)) /\
     call imp g "node_coordinates_at" [VInt (rank (nodes g) c)] = Returns (VArray Int64 (map IZR c)) /\
     call imp g "node" [VInt (rank (nodes g) c)] = Returns (VArray Float64 (position g c))) /\
  (forall c, node_of g c -> (0 <= rank (nodes g) c < product (nodes g))%Z) /\
  (forall i, (0 <= i < product (nodes g))%Z -> exists c, node_of g c /\ rank (nodes g) c = i).
Proof.
  intros imp g U. split; [|split].
  - intros c v C W. apply node_calls; assumption.
  - intros c C. apply rank_below, node_of_nodes. assumption.
  - intros i Hi. apply nodes_onto; assumption.
Qed.
Print Assumptions C95_nodes.
Example C95_nodes_witness :
  node_of solid [1; 0; 2]%Z /\ rank (nodes solid) [1; 0; 2]%Z = 13%Z /\ position solid [1; 0; 2]%Z = [2; 0; 1]%R /\
  integers (VList [1; 0; 2]%R) [1; 0; 2]%Z /\ cell_of solid [1; 0; 2]%Z /\ rank (cells solid) [1; 0; 2]%Z = 5%Z.
Proof.
  split; [repeat constructor; cbn; lia|]. split; [reflexivity|]. split.
  { unfold position, plane. cbn. apply (f_equal2 (@cons R)); [field|]. apply (f_equal2 (@cons R)); [field|]. apply (f_equal2 (@cons R)); [field|reflexivity]. }
  split; [split; [left; reflexivity|repeat constructor; lia]|]. split; [repeat constructor; cbn; lia|reflexivity].
Qed.

(** The nodes of a cell are its corners, whether the cell is given by its coordinates or by its index. *)
Theorem C95_corners : forall imp g c v, usual g -> cell_of g c -> integers v c ->
  let corner_ranks := map (fun d => rank (nodes g) (plus c d)) (corners (length g)) in
  call imp g "node_indices_of" [v] = Returns (VList (map IZR corner_ranks)) /\
  call imp g "node_indices_of" [VInt (rank (cells g) c)] = Returns (VList (map IZR corner_ranks)) /\
  Forall (fun d => node_of g (plus c d)) (corners (length g)).
Proof.
  intros imp g c v U C W corner_ranks. destruct (corners_calls imp g c v U C W) as [E1 E2]. split; [exact E1|]. split; [exact E2|].
  apply Forall_forall. intros d Hd. apply corner_node; assumption.
Qed.
Print Assumptions C95_corners.
Example C95_corners_witness :
  map (fun d => rank (nodes flat) (plus [1; 2]%Z d)) (corners 2) = [7; 8; 11; 10]%Z /\ cell_of flat [1; 2]%Z /\
  map (fun d => rank (nodes solid) (plus [1; 0; 2]%Z d)) (corners 3) = [13; 14; 17; 16; 19; 20; 23; 22]%Z.
Proof. split; [reflexivity|]. split; [repeat constructor; cbn; lia|reflexivity]. Qed.

(** edge(0), ..., edge(number_of_edges() - 1) are the segments between neighbouring nodes, each once. *)
Theorem C95_edges : forall imp g, usual g -> (3 * product (nodes g) <= 2 ^ 63)%Z ->
  exists n, call imp g "number_of_edges" [] = Returns (VInt n) /\
  enumerates n (fun i => call imp g "edge" [VInt i])
    (fun e => Returns (VList [IZR (rank (nodes g) (fst e)); IZR (rank (nodes g) (snd e))])) (lattice_edge g).
Proof. exact edges_numbered. Qed.
Print Assumptions C95_edges.
(** face(0), ..., face(number_of_faces() - 1) are the unit squares, each once, their corners in order. *)
Theorem C95_faces : forall imp g, usual g -> length g = 3 -> (3 * product (nodes g) <= 2 ^ 63)%Z ->
  exists n, call imp g "number_of_faces" [] = Returns (VInt n) /\
  enumerates n (fun i => call imp g "face" [VInt i]) (fun sq => Returns (VList (map IZR (map (rank (nodes g)) sq)))) (lattice_square g).
Proof. exact faces_numbered. Qed.
Print Assumptions C95_faces.
Example C95_edges_witness : (3 * product (nodes solid) <= 2 ^ 63)%Z /\ lattice_edge solid ([1; 0; 2], [1; 1; 2])%Z /\
  lattice_square solid [[1; 0; 2]; [1; 1; 2]; [1; 1; 3]; [1; 0; 3]]%Z /\ call true solid "number_of_edges" [] = Returns (VInt 46) /\
  call true solid "number_of_faces" [] = Returns (VInt 29).
Proof.
  split; [vm_compute; discriminate|]. split.
  - split; [repeat constructor; cbn; lia|]. split; [repeat constructor; cbn; lia|]. exists [0; 1; 0]%Z. split; [cbn; auto|reflexivity].
  - split; [|split; reflexivity]. split; [repeat constructor; cbn; lia|]. exists [1; 0; 2]%Z, [0; 1; 0]%Z, [0; 0; 1]%Z. split; [cbn; auto|reflexivity].
Qed.

(** ** Points *)
(** contains(p) and contains(p, e): the box, enlarged by a fraction of its sides which is 1e-19 by default. *)
Theorem C95_contains : forall imp g v p, usual g -> written v p -> length p = length g ->
  (forall w e, w = VFloat e \/ (exists z, w = VInt z /\ e = IZR z) ->
   exists b, call imp g "contains" [v; w] = Returns (VBool b) /\
     (b = true <-> Forall2 (fun a x => ax_anchor a - e * ax_size a <= x <= ax_anchor a + ax_size a + e * ax_size a)%R g p)) /\
  (exists b, call imp g "contains" [v] = Returns (VBool b) /\
     (b = true <-> Forall2 (fun a x => ax_anchor a - / IZR (10 ^ 19) * ax_size a <= x <= ax_anchor a + ax_size a + / IZR (10 ^ 19) * ax_size a)%R g p)).
Proof.
  intros imp g v p U W L. split.
  - intros w e E. exists (contains g p e). split; [|apply contains_spec; [apply U|assumption]]. chain_of U; cbn [snd].
    rewrite (dispatch_one imp _ _ (RBool (contains g p e))); [reflexivity|].
    apply (try_world_float (length g) [LFloat EPSILON] (fun p e => RBool (contains g p e)) v w p e W L). destruct E as [->|(z & -> & ->)]; reflexivity.
  - exists (contains g p EPSILON). split; [|apply (contains_spec g p EPSILON); [apply U|assumption]]. chain_of U; cbn [snd].
    rewrite (dispatch_one imp _ _ (RBool (contains g p EPSILON))); [reflexivity|].
    apply (try_world_float_default (length g) EPSILON (fun p e => RBool (contains g p e)) v p W L).
Qed.
Print Assumptions C95_contains.

(** Every point of the closed box is located in a cell that contains it: the default of the parameter test_for_boundary is True. *)
Theorem C95_locate : forall imp g v p, usual g -> written v p -> in_grid g p ->
  exists c, cell_of g c /\ closed_cell g c p /\
    call imp g "cell_index_containing" [v] = Returns (VInt (rank (cells g) c)) /\
    call imp g "cell_index_containing" [v; VBool true] = Returns (VInt (rank (cells g) c)).
Proof.
  intros imp g v p U W I. destruct (index_location_true g p (proj1 U) I) as (c & C & E & K). exists c. split; [exact C|]. split; [exact K|].
  pose proof (length_in_grid g p I) as L. rewrite (cell_index_rank g c U C) in E. split; chain_of U; cbn [snd].
  - rewrite (dispatch_one imp _ _ (RInt (cell_index_containing g p true))); [cbn [cast]; rewrite E; reflexivity|].
    apply (try_world_bool_default (length g) true (fun p b => RInt (cell_index_containing g p b)) v p W L).
  - rewrite (dispatch_one imp _ _ (RInt (cell_index_containing g p true))); [cbn [cast]; rewrite E; reflexivity|].
    apply (try_world_bool (length g) [LBool true] (fun p b => RInt (cell_index_containing g p b)) v (VBool true) p true W L). reflexivity.
Qed.
Print Assumptions C95_locate.
(** With False, every point of the box without its upper sides, in the only cell to which it belongs. *)
Theorem C95_locate_half_open : forall imp g v p, usual g -> written v p -> in_grid_half_open g p ->
  exists c, cell_of g c /\ half_open_cell g c p /\ call imp g "cell_index_containing" [v; VBool false] = Returns (VInt (rank (cells g) c)).
Proof.
  intros imp g v p U W I. destruct (location_half_open g p (proj1 U) I) as [C K]. exists (cell_coordinates_at g p false). split; [exact C|]. split; [exact K|].
  pose proof (length_in_half g p I) as L. rewrite <- (cell_index_rank g _ U C). chain_of U; cbn [snd].
  rewrite (dispatch_one imp _ _ (RInt (cell_index_containing g p false))); [reflexivity|].
  apply (try_world_bool (length g) [LBool true] (fun p b => RInt (cell_index_containing g p b)) v (VBool false) p false W L). reflexivity.
Qed.
Print Assumptions C95_locate_half_open.
(** cells_around(p): all the cells that contain the point, and only cells closer than 1e-19 of their size, each once. *)
Theorem C95_around : forall imp g v p, usual g -> written v p -> in_grid g p ->
  exists l, call imp g "cells_around" [v] = Returns (VList (map IZR l)) /\ NoDup l /\
    (forall c, cell_of g c -> closed_cell g c p -> In (rank (cells g) c) l) /\
    (forall i, In i l -> exists c, cell_of g c /\ i = rank (cells g) c /\ enlarged_cell (/ IZR (10 ^ 19)) g c p).
Proof.
  intros imp g v p U W I. pose proof (length_in_grid g p I) as L. exists (cells_around g p). split; [|split; [|split]].
  - chain_of U; cbn [snd]. rewrite (dispatch1 imp _ _ _ _ _ (load_world (length g) v p W L) eq_refl). reflexivity.
  - apply cells_around_nodup; [apply U|assumption].
  - intros c C K. rewrite <- (cell_index_rank g c U C). apply around_complete; try assumption. apply U.
  - intros i Hi. destruct (around_sound g p i (proj1 U) I Hi) as (c & C & E & K). exists c. rewrite <- (cell_index_rank g c U C). auto.
Qed.
Print Assumptions C95_around.
Example C95_points_witness : in_grid flat [2; 4]%R /\ in_grid_half_open flat [3 / 2; 0]%R /\ closed_cell flat [1; 2]%Z [2; 4]%R.
Proof.
  split; [repeat constructor; cbn; lra|]. split; [repeat constructor; cbn; lra|]. repeat constructor; unfold plane; cbn; lra.
Qed.

(** ** Which calls are answered *)
(** A call of any method but cell_at raises an exception unless it is in the list [answered]. *)
Theorem C95_signatures : forall imp g name vs, usual g -> name <> "cell_at" ->
  (call imp g name vs <> Raises <-> answered (length g) name vs).
Proof. exact answered_calls. Qed.
Print Assumptions C95_signatures.
Example C95_signatures_witness :
  answered 2 "cell_index_containing" [VList [1; 2]%R; VNone] /\ ~ answered 2 "cell_index_containing" [VFloat 1; VFloat 2] /\
  answered 2 "node" [VInt (-1)] /\ ~ answered 2 "face" [VInt 0].
Proof.
  split; [apply a_point_and_a_truth_value; [exists [1; 2]%R; split; [left; reflexivity|reflexivity]|exact I]|]. split.
  - intros H. inversion H as [| | |v w (l & [E|(d & E)] & _)| | | | |]; discriminate.
  - split; [apply an_index; [cbn; auto|]; exists (-1)%Z; split; [constructor|lia]|].
    intros H. inversion H as [|E| ? ? N| | |? ? N|? ? N| |? E]; try discriminate; cbn in N;
      repeat (destruct N as [N|N]; [discriminate|]); contradiction.
Qed.

(** node(coordinates) and cell_coordinates_at(point), which the C++ class and the code of the binding have, are hidden by the methods of the
    same name of the derived class: for every grid and every argument that they should take, they raise an exception. *)
Theorem C95_hidden_refuted : forall imp g v p, usual g -> written v p -> length p = length g ->
  call imp g "node" [v] = Raises /\ call imp g "cell_coordinates_at" [v] = Raises /\ forall b, call imp g "cell_coordinates_at" [v; b] = Raises.
Proof.
  intros imp g v p U W L.
  assert (N : load true PIndex v = None).
  { cbn [load]. rewrite (vector_no_integer (length g) v p) by (try assumption; apply length_usual; assumption). reflexivity. }
  split; [|split]; [| |intros b].
  - chain_of U; cbn [snd]. apply dispatch1_none. exact N.
  - chain_of U; cbn [snd]. apply dispatch1_none. exact N.
  - destruct (call imp g "cell_coordinates_at" [v; b]) eqn:E; [reflexivity| |]; exfalso;
      (assert (X : answered (length g) "cell_coordinates_at" [v; b]) by (apply (C95_signatures imp); [assumption|discriminate|congruence]);
       inversion X; subst).
Qed.
Print Assumptions C95_hidden_refuted.
(** They can be called through the base class. *)
Theorem C95_through_the_base : forall imp g, usual g ->
  (forall c v, integers v c -> length c = length g -> call_of imp (BaseGrid g) "node" [v] = Returns (VArray Float64 (position g c))) /\
  (forall p v, written v p -> in_grid g p -> exists c, cell_of g c /\ closed_cell g c p /\
     call_of imp (BaseGrid g) "cell_coordinates_at" [v; VBool true] = Returns (VArray Int64 (map IZR c))) /\
  (forall p v, written v p -> in_grid_half_open g p -> exists c, cell_of g c /\ half_open_cell g c p /\
     call_of imp (BaseGrid g) "cell_coordinates_at" [v] = Returns (VArray Int64 (map IZR c))).
Proof.
  intros imp g U. split; [|split].
  - intros c v W L. erewrite base_chain by reflexivity. cbn [snd]. rewrite (dispatch1 imp _ _ _ _ _ (load_coordinates (length g) v c W L) eq_refl).
    rewrite node_positions; [reflexivity|apply U|assumption].
  - intros p v W I. pose proof (length_in_grid g p I) as L. exists (cell_coordinates_at g p true).
    assert (X : cell_of g (cell_coordinates_at g p true) /\ closed_cell g (cell_coordinates_at g p true) p) by (apply location_true; [apply U|assumption]).
    split; [apply X|]. split; [apply X|]. erewrite base_chain by reflexivity. cbn [snd app]. unfold dispatch.
    assert (T1 : forall conv h, try_overload conv [v; VBool true] (f1 (PWorld (length g)) h) = None).
    { intros conv h. unfold try_overload. cbn [f1 params defaults load_all]. destruct (load conv (PWorld (length g)) v); reflexivity. }
    cbn [first_of]. rewrite !T1.
    set (o := f2 (PWorld (length g)) PBool [] _).
    assert (T2 : try_overload true [v; VBool true] o = Some (RCoordinates (cell_coordinates_at g p true))).
    { apply (try_world_bool (length g) [] (fun p b => RCoordinates (cell_coordinates_at g p b)) v (VBool true) p true W L). reflexivity. }
    destruct (try_overload false [v; VBool true] o) as [r|] eqn:E; [apply try_mono_some in E; rewrite T2 in E; injection E as <-; reflexivity|].
    rewrite T2. reflexivity.
  - intros p v W I. pose proof (length_in_half g p I) as L. destruct (location_half_open g p (proj1 U) I) as [C K].
    exists (cell_coordinates_at g p false). split; [exact C|]. split; [exact K|]. erewrite base_chain by reflexivity. cbn [snd app]. unfold dispatch.
    cbn [first_of]. set (o1 := f1 (PWorld (length g)) _). set (o2 := f2 (PWorld (length g)) PBool [] _).
    assert (T1 : try_overload true [v] o1 = Some (RCoordinates (cell_coordinates_at g p false))).
    { unfold try_overload, o1. cbn [f1 params defaults body load_all]. rewrite (load_world (length g) v p W L). reflexivity. }
    assert (T2 : try_overload false [v] o2 = None).
    { unfold try_overload, o2. cbn [f2 params defaults body load_all]. destruct (load false (PWorld (length g)) v); reflexivity. }
    destruct (try_overload false [v] o1) as [r|] eqn:E; [apply try_mono_some in E; rewrite T1 in E; injection E as <-; reflexivity|].
    rewrite T2, T1. reflexivity.
Qed.
Print Assumptions C95_through_the_base.

(** ** The element of a cell *)
(** In space, cell_at gives a hexahedron with the corners of the cell, in order, when Caribou.Geometry has been imported; otherwise it raises. *)
Theorem C95_cell_at_3d : forall g c v, usual g -> length g = 3 -> cell_of g c -> integers v c ->
  (call true g "cell_at" [v] = Returns (VElement RectangularHexahedron8 (map (fun d => position g (plus c d)) (corners 3))) /\
   call true g "cell_at" [VInt (rank (cells g) c)] = Returns (VElement RectangularHexahedron8 (map (fun d => position g (plus c d)) (corners 3)))) /\
  call false g "cell_at" [v] = Raises /\ call false g "cell_at" [VInt (rank (cells g) c)] = Raises.
Proof.
  intros g c v U L3 C W. pose proof (rank_below _ _ (cell_of_cells g c C)) as RB. pose proof (cells_product g U) as CP.
  destruct (cells_numbered g c U C) as [E1 E2]. pose proof (length_usual g U) as LU. pose proof (cell_ok g U) as OK.
  destruct (length3 _ _ L3) as (a & b & d & ->).
  assert (A : forall imp, call imp [a; b; d] "cell_at" [v] = cast imp (cell_element [a; b; d] c)).
  { intros imp. erewrite call_chain by reflexivity. cbn [snd app]. eapply dispatch_coordinates; [exact LU|exact W|apply length_cell; assumption|reflexivity]. }
  assert (B : forall imp, call imp [a; b; d] "cell_at" [VInt (rank (cells [a; b; d]) c)] = cast imp (cell_element [a; b; d] c)).
  { intros imp. erewrite call_chain by reflexivity. cbn [snd app]. erewrite dispatch_index; [|lia|reflexivity]. rewrite OK. cbn [guarded]. rewrite E2. reflexivity. }
  rewrite !A, !B. unfold cell_element. rewrite (cell_corners3 a b d c U C). repeat split.
Qed.
Print Assumptions C95_cell_at_3d.
(** In the plane it never works: the class of the cells is not bound. *)
Theorem C95_cell_at_2d_refuted : forall imp g c v, usual g -> length g = 2 -> cell_of g c -> integers v c ->
  call imp g "cell_at" [v] = Raises /\ call imp g "cell_at" [VInt (rank (cells g) c)] = Raises.
Proof.
  intros imp g c v U L2 C W. pose proof (rank_below _ _ (cell_of_cells g c C)) as RB. pose proof (cells_product g U) as CP.
  destruct (cells_numbered g c U C) as [E1 E2]. pose proof (length_usual g U) as LU. pose proof (cell_ok g U) as OK.
  destruct (length2 _ _ L2) as (a & b & ->). split; (erewrite call_chain by reflexivity); cbn [snd app].
  - erewrite dispatch_coordinates; [|exact LU|exact W|apply length_cell; assumption|reflexivity]. reflexivity.
  - erewrite dispatch_index; [|lia|reflexivity]. rewrite OK. cbn [guarded]. rewrite E2. reflexivity.
Qed.
Print Assumptions C95_cell_at_2d_refuted.

(** ** Arguments that are not checked *)
(** Coordinates with a fraction are truncated. *)
Theorem C95_coordinates_rounded_refuted : forall imp g c v l, usual g -> cell_of g c -> written v l ->
  Forall2 (fun i x => (IZR i <= x < IZR i + 1)%R) c l ->
  call imp g "cell_index_at" [v] = Returns (VInt (rank (cells g) c)).
Proof.
  intros imp g c v l U C W F. destruct (cells_numbered g c U C) as [E1 _].
  assert (Ll : length l = length g) by (rewrite <- (length_cell g c C); clear -F; induction F; cbn; congruence).
  assert (B : Forall (fun i => (0 <= i < 2 ^ 63)%Z) c).
  { assert (Bg : Forall (fun a => (ax_n a < 2 ^ 63)%Z) g).
    { destruct (usual_form g U) as [(a & b & -> & A1 & B1 & _ & _ & P)|(a & b & d & -> & A1 & B1 & D1 & _ & _ & _ & P)].
      - repeat constructor; nia.
      - assert (0 < (ax_n a + 1) * (ax_n b + 1))%Z by nia.
        assert (ax_n a + 1 <= (ax_n a + 1) * (ax_n b + 1))%Z by nia. assert (ax_n b + 1 <= (ax_n a + 1) * (ax_n b + 1))%Z by nia.
        repeat constructor; nia. }
    clear -C Bg. induction C as [|a i g c Hi C IH]; constructor; rewrite Forall_cons_iff in Bg; [lia|apply IH; tauto]. }
  assert (T : map to_int64 l = c).
  { clear -F B. induction F as [|i x c l Hx F IH]; [reflexivity|]. rewrite Forall_cons_iff in B. cbn [map]. rewrite IH by tauto. f_equal. unfold to_int64.
    destruct B as [B _]. assert (0 <= IZR i)%R by (apply IZR_le; lia). rewrite Ztrunc_floor by lra.
    rewrite (Zfloor_imp i) by (rewrite plus_IZR; lra). apply s64_small. lia. }
  chain_of U; cbn [snd].
  assert (LC : load true (PCoordinates (length g)) v = Some (LCoordinates c)).
  { cbn [load]. rewrite (proj2 (entries_written Int64 (length g) v l) (conj W Ll)). cbn [option_map]. rewrite T. reflexivity. }
  rewrite (dispatch1 imp _ _ _ _ _ LC eq_refl). rewrite E1. reflexivity.
Qed.
Print Assumptions C95_coordinates_rounded_refuted.
(** An index beyond the last node is answered with a point outside of the grid, without an exception. *)
Theorem C95_outside_refuted : forall imp g i, usual g -> (product (nodes g) <= i < 2 ^ 63)%Z ->
  exists p, call imp g "node" [VInt i] = Returns (VArray Float64 p) /\ ~ in_grid g p.
Proof. exact node_out_of_range. Qed.
Print Assumptions C95_outside_refuted.
(** A grid without cells along its first axis is made without an exception; asking it for the coordinates of a cell or for the nodes of a cell,
    by index, ends the process. *)
Theorem C95_empty_refuted : forall imp g i name, (length g = 2 \/ length g = 3) -> nth_error (map ax_n g) 0 = Some 0%Z -> (- 2 ^ 63 <= i < 2 ^ 63)%Z ->
  In name ["cell_coordinates_at"; "node_indices_of"; "cell_at"] -> call imp g name [VInt i] = Dies.
Proof.
  intros imp g i name L Z0 Hi N.
  assert (V : cell_divisors_vanish (subdivisions g) = true).
  { destruct L as [L|L]; [destruct (length2 _ _ L) as (a & b & ->)|destruct (length3 _ _ L) as (a & b & d & ->)]; cbn in Z0; injection Z0 as Z0;
      cbn [subdivisions map cell_divisors_vanish]; rewrite Z0; [reflexivity|]. rewrite orb_true_r. reflexivity. }
  destruct N as [<-|[<-|[<-|[]]]].
  - destruct L as [L|L]; [destruct (length2 _ _ L) as (a & b & ->)|destruct (length3 _ _ L) as (a & b & d & ->)];
      (erewrite call_chain by reflexivity); cbn [snd]; rewrite (dispatch1 imp _ _ _ _ _ (load_index i Hi) eq_refl); rewrite V; reflexivity.
  - destruct L as [L|L]; [destruct (length2 _ _ L) as (a & b & ->)|destruct (length3 _ _ L) as (a & b & d & ->)];
      (erewrite call_chain by reflexivity); cbn [snd app]; (erewrite dispatch_index; [|exact Hi|reflexivity]); rewrite V; reflexivity.
  - destruct L as [L|L]; [destruct (length2 _ _ L) as (a & b & ->)|destruct (length3 _ _ L) as (a & b & d & ->)];
      (erewrite call_chain by reflexivity); cbn [snd app]; (erewrite dispatch_index; [|exact Hi|reflexivity]); rewrite V; reflexivity.
Qed.
Print Assumptions C95_empty_refuted.
Example C95_empty_witness : construct "Grid2D" [VList [0; 0]%R; VList [0; 3]%R; VList [1; 1]%R] <> None.
Proof. erewrite (construct_given 2); [discriminate|left; split; reflexivity|reflexivity|reflexivity|reflexivity]. Qed.

(** ** Hash grids *)
(** HashGrid(class, size) and HashGrid(class, size, n) make an empty hash grid for elements of that class, for the six classes of C++. *)
Theorem C95_hash_made : forall c w size, c <> RectangularQuad4 -> (w = VFloat size \/ exists z, w = VInt z /\ size = IZR z) ->
  make_hash_grid true [VClass c; w] = Made (empty_hash_grid c size) /\
  forall n, (0 <= n < 2 ^ 64)%Z -> make_hash_grid true [VClass c; w; VInt n] = Made (empty_hash_grid c size).
Proof.
  intros c w size Hc Hw. split; [|intros n Hn].
  - destruct Hw as [->|(z & -> & ->)]; destruct c; try reflexivity; contradiction.
  - pose proof (load_unsigned n Hn) as E. assert (E' : load false PUnsigned (VInt n) = Some (LUnsigned n)) by exact E.
    unfold make_hash_grid. destruct Hw as [->|(z & -> & ->)]; cbn [load_all load]; cbn [load] in E, E'; rewrite ?E, ?E'; destruct c; try reflexivity; contradiction.
Qed.
Print Assumptions C95_hash_made.
(** Before Caribou.Geometry is imported it raises an exception; afterwards any object that is not one of those classes gives None. *)
Theorem C95_hash_none_refuted : forall v size,
  make_hash_grid false [v; VFloat size] = NoHashGrid /\
  ((forall c, v = VClass c -> c = RectangularQuad4) -> make_hash_grid true [v; VFloat size] = MadeNone).
Proof.
  intros v size. split; [destruct v; reflexivity|]. intros H. destruct v as [z|x|b| |d l|l|l|c nodes|c|]; try reflexivity.
  rewrite (H c eq_refl). reflexivity.
Qed.
Print Assumptions C95_hash_none_refuted.

(** After any sequence of calls of add, some of which may have been refused: get(p) is a set with the number of every element that was given with a
    bounding box around p, and only with numbers of elements whose bounding box is closer than about the size of a cell. *)
Theorem C95_hash_history : forall c size calls v p, (0 < size)%R -> Forall (Forall in_space) calls -> written v p -> length p = 3 ->
  exists l, hash_get (after_adds (empty_hash_grid c size) calls) [v] = Returns (VSet l) /\ NoDup l /\
  (forall vs nodes id, In vs calls -> adds_element c nodes id vs -> in_bounding_box nodes p -> In id l) /\
  (forall id, In id l -> exists vs nodes, In vs calls /\ adds_element c nodes id vs /\
     forall k x, nth_error p k = Some x ->
      (exists n y, In n nodes /\ nth_error n k = Some y /\ y < x + (1 + / IZR (10 ^ 19)) * size)%R /\
      (exists n y, In n nodes /\ nth_error n k = Some y /\ x - (1 + / IZR (10 ^ 19)) * size < y)%R).
Proof. exact hash_history. Qed.
Print Assumptions C95_hash_history.
Example C95_hash_history_witness :
  let corner := [[0; 0; 0]; [1; 0; 0]; [0; 1; 0]; [0; 0; 1]]%R in
  in_space (VElement Tetrahedron4 corner) /\ adds_element Tetrahedron4 corner 7 [VElement Tetrahedron4 corner; VInt 7] /\ in_bounding_box corner [1 / 2; 1; 0]%R.
Proof.
  intros corner. split; [split; [discriminate|repeat constructor]|]. split; [exists (VInt 7); repeat split; try constructor; lia|].
  intros [|[|[|k]]] x E; cbn in E; try discriminate; [| | |destruct k; discriminate]; injection E as <-; split.
  - exists [0; 0; 0]%R, 0%R. cbn. split; [tauto|]. split; [reflexivity|lra].
  - exists [1; 0; 0]%R, 1%R. cbn. split; [tauto|]. split; [reflexivity|lra].
  - exists [0; 0; 0]%R, 0%R. cbn. split; [tauto|]. split; [reflexivity|lra].
  - exists [0; 1; 0]%R, 1%R. cbn. split; [tauto|]. split; [reflexivity|lra].
  - exists [0; 0; 0]%R, 0%R. cbn. split; [tauto|]. split; [reflexivity|lra].
  - exists [0; 0; 1]%R, 1%R. cbn. split; [tauto|]. split; [reflexivity|lra].
Qed.

(** The classes of the hash grids of hexahedra have each other's names: the one called after the hexahedra with 8 nodes refuses them and takes those
    with 20 nodes, and conversely. *)
Theorem C95_hash_names_refuted : forall size nodes id, (0 <= id < 2 ^ 64)%Z ->
  exists h8 h20, construct_hash_grid "Hexahedron8HashGrid" [VFloat size] = Made h8 /\ construct_hash_grid "Hexahedron20HashGrid" [VFloat size] = Made h20 /\
  hash_add h8 [VElement Hexahedron8 nodes; VInt id] = None /\ hash_add h20 [VElement Hexahedron20 nodes; VInt id] = None /\
  hash_add h8 [VElement Hexahedron20 nodes; VInt id] <> None /\ hash_add h20 [VElement Hexahedron8 nodes; VInt id] <> None.
Proof.
  intros size nodes id Hid. exists (empty_hash_grid Hexahedron20 size), (empty_hash_grid Hexahedron8 size). do 2 (split; [reflexivity|]).
  do 2 (split; [reflexivity|]).
  split; (erewrite (proj2 (hash_add_spec _ _ _)) by (exists nodes, id; split; [exists (VInt id); repeat split; try constructor; lia|reflexivity])); discriminate.
Qed.
Print Assumptions C95_hash_names_refuted.
(** The other four are called after their elements, and take exactly them. *)
Theorem C95_hash_names : forall name c size, In (name, c) [("Tetrahedron4HashGrid", Tetrahedron4); ("Tetrahedron10HashGrid", Tetrahedron10);
    ("RectangularHexahedron8HashGrid", RectangularHexahedron8); ("RectangularHexahedron20HashGrid", RectangularHexahedron20)] ->
  construct_hash_grid name [VFloat size] = Made (empty_hash_grid c size) /\
  forall vs, hash_add (empty_hash_grid c size) vs <> None <-> exists nodes id, adds_element c nodes id vs.
Proof.
  intros name c size H. split.
  - cbn in H. repeat (destruct H as [E|H]; [injection E as <- <-; reflexivity|]). contradiction.
  - intros vs. split.
    + destruct (hash_add (empty_hash_grid c size) vs) as [h|] eqn:E; [|congruence]. apply hash_add_spec in E. destruct E as (nodes & id & A & _). eauto.
    + intros (nodes & id & A). erewrite (proj2 (hash_add_spec _ _ _)) by (exists nodes, id; split; [exact A|reflexivity]). discriminate.
Qed.
Print Assumptions C95_hash_names.
