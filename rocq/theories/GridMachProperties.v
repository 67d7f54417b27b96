(** C80: the numbering of a regular grid survives the 64-bit integers of the code exactly as
    long as the numbered items are at most 2^63, and the loops over cells and elements that
    use a 32-bit variable visit everything exactly when there are fewer than 2^31 items. *)

From Coq Require Import ZArith List Lia Bool FinFun.
From Verif Require Import GridModel GridSpec GridProofs GridMachModel GridMachProofs.
Import ListNotations.
Open Scope Z_scope.

Theorem C80_cells : forall nx ny nz, 0 < nx -> 0 < ny -> 0 < nz ->
  (nx * ny <= 2 ^ 63 ->
   m_number_of_cells2 nx ny = nx * ny /\
   mutually_inverse (box2 nx ny) (below (m_number_of_cells2 nx ny))
                    (m_cell_index_at2 nx) (m_cell_coordinates_at2 nx)) /\
  (nx * ny * nz <= 2 ^ 63 ->
   m_number_of_cells3 nx ny nz = nx * ny * nz /\
   mutually_inverse (box3 nx ny nz) (below (m_number_of_cells3 nx ny nz))
                    (m_cell_index_at3 nx ny) (m_cell_coordinates_at3 nx ny)).
Proof.
  intros nx ny nz Hx Hy Hz. pose proof fits_u. assert (0 < nx * ny) by nia.
  assert (0 < nx * ny * nz) by nia. split; intros Hf; split.
  - apply m_cells2; lia.
  - apply m_cells2_inverse; assumption.
  - apply m_cells3; lia.
  - apply m_cells3_inverse; assumption.
Qed.
Print Assumptions C80_cells.

Theorem C80_nodes : forall nx ny nz, 0 < nx -> 0 < ny -> 0 < nz ->
  ((nx + 1) * (ny + 1) <= 2 ^ 63 ->
   m_number_of_nodes2 nx ny = (nx + 1) * (ny + 1) /\
   mutually_inverse (box2 (nx + 1) (ny + 1)) (below (m_number_of_nodes2 nx ny))
                    (m_node_index_at2 nx) (m_node_coordinates_at2 nx)) /\
  ((nx + 1) * (ny + 1) * (nz + 1) <= 2 ^ 63 ->
   m_number_of_nodes3 nx ny nz = (nx + 1) * (ny + 1) * (nz + 1) /\
   mutually_inverse (box3 (nx + 1) (ny + 1) (nz + 1)) (below (m_number_of_nodes3 nx ny nz))
                    (m_node_index_at3 nx ny) (m_node_coordinates_at3 nx ny)).
Proof.
  intros nx ny nz Hx Hy Hz. pose proof fits_u. assert (0 < (nx + 1) * (ny + 1)) by nia.
  assert (0 < (nx + 1) * (ny + 1) * (nz + 1)) by nia. split; intros Hf; split.
  - apply m_nodes2; lia.
  - apply m_nodes2_inverse; assumption.
  - apply m_nodes3; lia.
  - apply m_nodes3_inverse; assumption.
Qed.
Print Assumptions C80_nodes.

(** The nodes listed for a cell are the machine indices of its corners. *)
Theorem C80_corners : forall nx ny nz cell, 0 < nx -> 0 < ny -> 0 < nz ->
  ((nx + 1) * (ny + 1) <= 2 ^ 63 -> below (nx * ny) cell ->
   m_node_indices_of2 nx cell =
     map (m_node_index_at2 nx) (map (shift2 (m_cell_coordinates_at2 nx cell)) corner2) /\
   Forall (below (m_number_of_nodes2 nx ny)) (m_node_indices_of2 nx cell) /\
   NoDup (m_node_indices_of2 nx cell)) /\
  ((nx + 1) * (ny + 1) * (nz + 1) <= 2 ^ 63 -> below (nx * ny * nz) cell ->
   m_node_indices_of3 nx ny cell =
     map (m_node_index_at3 nx ny) (map (shift3 (m_cell_coordinates_at3 nx ny cell)) corner3) /\
   Forall (below (m_number_of_nodes3 nx ny nz)) (m_node_indices_of3 nx ny cell) /\
   NoDup (m_node_indices_of3 nx ny cell)).
Proof.
  intros nx ny nz cell Hx Hy Hz. pose proof fits_u. assert (0 < (nx + 1) * (ny + 1)) by nia.
  assert (0 < (nx + 1) * (ny + 1) * (nz + 1)) by nia. split; intros Hf Hc.
  - destruct (corners2 nx ny cell Hx Hy Hc) as (E & B & F & D).
    rewrite (m_corners2 nx ny cell Hx Hy Hf Hc). rewrite m_nodes2 by lia.
    split; [|split; assumption]. rewrite E. unfold below in Hc.
    rewrite m_cell_coords2 by nia. symmetry.
    apply map_ext_in. intros a Ha. apply m_node_index2.
    rewrite Forall_forall in B. specialize (B a Ha).
    destruct (proj1 (nodes2_inverse nx ny Hx Hy) a B) as [N _].
    unfold below, number_of_nodes2 in N. lia.
  - destruct (corners3 nx ny nz cell Hx Hy Hz Hc) as (E & B & F & D).
    rewrite (m_corners3 nx ny nz cell Hx Hy Hz Hf Hc). rewrite m_nodes3 by lia.
    split; [|split; assumption]. rewrite E. unfold below in Hc.
    assert (0 < nx * ny) by nia. assert (nx * ny <= (nx + 1) * (ny + 1)) by nia.
    assert ((nx + 1) * (ny + 1) <= (nx + 1) * (ny + 1) * (nz + 1)) by nia.
    assert (nx * ny * nz <= (nx + 1) * (ny + 1) * (nz + 1)) by nia.
    rewrite m_cell_coords3 by lia. symmetry.
    apply map_ext_in. intros a Ha. apply m_node_index3.
    rewrite Forall_forall in B. specialize (B a Ha).
    destruct (proj1 (nodes3_inverse nx ny nz Hx Hy Hz) a B) as [N _].
    unfold below, number_of_nodes3 in N. lia.
Qed.
Print Assumptions C80_corners.

(** Edges and faces are enumerated without omission, repetition or wrap-around. *)
Theorem C80_edges : forall nx ny nz, 0 < nx -> 0 < ny -> 0 < nz ->
  (number_of_edges2 nx ny <= 2 ^ 63 ->
   enumerates (m_number_of_edges2 nx ny) (m_edge2 nx)
              (fun e => (m_node_index_at2 nx (fst e), m_node_index_at2 nx (snd e)))
              (fun e => unit_edge2 nx ny (fst e) (snd e))) /\
  (number_of_edges3 nx ny nz <= 2 ^ 63 ->
   enumerates (m_number_of_edges3 nx ny nz) (m_edge3 nx ny)
              (fun e => (m_node_index_at3 nx ny (fst e), m_node_index_at3 nx ny (snd e)))
              (fun e => unit_edge3 nx ny nz (fst e) (snd e))).
Proof.
  intros nx ny nz Hx Hy Hz. pose proof fits_u. split; intros Hf.
  - assert (P : 0 <= number_of_edges2 nx ny) by (unfold number_of_edges2; nia).
    rewrite m_edges2 by lia.
    apply enumerates_ext with (3 := edges2_enumeration nx ny Hx Hy).
    + intros i Hi. apply m_edge2_exact with ny; assumption.
    + intros [a b] (Ba & Bb & _). unfold enc_edge2. simpl in *.
      destruct (proj1 (nodes2_inverse nx ny Hx Hy) a Ba) as [Na _].
      destruct (proj1 (nodes2_inverse nx ny Hx Hy) b Bb) as [Nb _].
      unfold below, number_of_nodes2, number_of_edges2 in *.
      rewrite !m_node_index2 by nia. reflexivity.
  - assert (P : 0 <= number_of_edges3 nx ny nz) by (unfold number_of_edges3; nia).
    rewrite m_edges3 by lia.
    apply enumerates_ext with (3 := edges3_enumeration nx ny nz Hx Hy Hz).
    + intros i Hi. apply m_edge3_exact with nz; assumption.
    + intros [a b] (Ba & Bb & _). unfold enc_edge3. simpl in *.
      destruct (proj1 (nodes3_inverse nx ny nz Hx Hy Hz) a Ba) as [Na _].
      destruct (proj1 (nodes3_inverse nx ny nz Hx Hy Hz) b Bb) as [Nb _].
      unfold below, number_of_nodes3 in *.
      assert (N : (nx + 1) * (ny + 1) * (nz + 1) <= number_of_edges3 nx ny nz).
      { unfold number_of_edges3. set (n := (nx + 1) * (ny + 1)).
        assert (n <= (2 * nx + 1) * ny + nx) by (unfold n; nia).
        assert (0 < n) by (unfold n; nia). nia. }
      rewrite !m_node_index3 by lia. reflexivity.
Qed.
Print Assumptions C80_edges.

Theorem C80_faces : forall nx ny nz, 0 < nx -> 0 < ny -> 0 < nz ->
  number_of_faces3 nx ny nz < 2 ^ 64 -> (nx + 1) * (ny + 1) * (nz + 1) <= 2 ^ 63 ->
  enumerates (m_number_of_faces3 nx ny nz) (m_face3 nx ny)
             (map (m_node_index_at3 nx ny)) (unit_square3 nx ny nz).
Proof.
  intros nx ny nz Hx Hy Hz Hf Hn.
  assert (P : 0 <= number_of_faces3 nx ny nz) by (unfold number_of_faces3; nia).
  rewrite m_faces3 by lia.
  apply enumerates_ext with (3 := faces3_enumeration nx ny nz Hx Hy Hz).
  - intros i Hi. apply m_face3_exact with nz; try assumption; lia.
  - intros sq Hsq. unfold enc_face3. apply map_ext_in. intros a Ha. apply m_node_index3.
    pose proof (m_face_corner nx ny nz sq Hx Hy Hz Hn Hsq) as F.
    rewrite Forall_forall in F. specialize (F _ (in_map _ _ _ Ha)). unfold below in F.
    pose proof p63_pos. lia.
Qed.
Print Assumptions C80_faces.

(** Whatever the signed coordinates given (points outside of the grid included), the index is
    the exact combination of them whenever that number is a [signed long long]: the detour
    through unsigned arithmetic is invisible. *)
Theorem C80_any_coordinates : forall nx ny i j k,
  (- 2 ^ 63 <= j * nx + i < 2 ^ 63 -> m_cell_index_at2 nx (i, j) = j * nx + i) /\
  (- 2 ^ 63 <= k * ny * nx + j * nx + i < 2 ^ 63 ->
   m_cell_index_at3 nx ny (i, j, k) = k * ny * nx + j * nx + i).
Proof.
  intros. split; intros H.
  - exact (m_cell_index2 nx (i, j) H).
  - exact (m_cell_index3 nx ny (i, j, k) H).
Qed.
Print Assumptions C80_any_coordinates.

(** Above the bound nothing holds any more: in every grid with more than 2^63 cells (each
    subdivision being itself representable) some valid cell gets a negative index, and beyond
    2^64 the reported number of cells is wrong and two distinct cells share an index. *)
Theorem C80_too_large_refuted : forall nx ny nz,
  0 < nx <= 2 ^ 63 -> 0 < ny <= 2 ^ 63 -> 0 < nz <= 2 ^ 63 ->
  (2 ^ 63 < nx * ny * nz -> exists c, box3 nx ny nz c /\ m_cell_index_at3 nx ny c < 0) /\
  (2 ^ 64 <= nx * ny * nz -> m_number_of_cells3 nx ny nz < nx * ny * nz) /\
  (2 ^ 64 < nx * ny * nz ->
   exists c c', box3 nx ny nz c /\ box3 nx ny nz c' /\ c <> c' /\
                m_cell_index_at3 nx ny c = m_cell_index_at3 nx ny c').
Proof.
  intros nx ny nz Hx Hy Hz. pose proof p63_pos. pose proof fits_u.
  destruct (cells3_inverse nx ny nz ltac:(lia) ltac:(lia) ltac:(lia)) as [I1 I2].
  assert (X : forall c e, cell_index_at3 nx ny c = e -> m_cell_index_at3 nx ny c = s64 e).
  { intros [[i j] k] e E. unfold m_cell_index_at3. rewrite <- E.
    unfold cell_index_at3. rewrite <- s64_u64.
    match goal with |- s64 (u64 ?a) = s64 ?b => assert (C : cong a b) by mcong end.
    unfold cong in C. rewrite C. apply s64_u64. }
  split; [|split].
  - intros L. destruct (I2 (2 ^ 63)) as [B E]; [unfold below, number_of_cells3; lia|].
    exists (cell_coordinates_at3 nx ny (2 ^ 63)). split; [assumption|].
    rewrite (X _ _ E). reflexivity.
  - intros L. unfold m_number_of_cells3. rewrite umul_u64.
    match goal with |- u64 ?a < _ => pose proof (u64_range a) end. lia.
  - intros L.
    destruct (I2 0) as [B0 E0]; [unfold below, number_of_cells3; lia|].
    destruct (I2 (2 ^ 64)) as [B1 E1]; [unfold below, number_of_cells3; lia|].
    exists (cell_coordinates_at3 nx ny 0), (cell_coordinates_at3 nx ny (2 ^ 64)).
    split; [assumption|]. split; [assumption|]. split.
    + intros E. rewrite <- E, E0 in E1. discriminate.
    + rewrite (X _ _ E0), (X _ _ E1). reflexivity.
Qed.
Print Assumptions C80_too_large_refuted.

Lemma of_nat_seq_in : forall n z, In z (map Z.of_nat (seq 0 n)) <-> 0 <= z < Z.of_nat n.
Proof.
  intros n z. rewrite in_map_iff. split.
  - intros [m [E I]]. apply in_seq in I. lia.
  - intros B. exists (Z.to_nat z). split; [lia|]. apply in_seq. lia.
Qed.

(** The loops with an [int] variable: every item is visited, in order and once, when there
    are fewer than 2^31 of them ... *)
Theorem C80_int_loop_partial : forall count, 0 <= count ->
  NoDup (int_loop_visits count) /\
  ((forall z, In z (int_loop_visits count) <-> below count z) <-> count < 2 ^ 31).
Proof.
  intros count H. split.
  - unfold int_loop_visits. apply FinFun.Injective_map_NoDup; [|apply seq_NoDup].
    intros a b E. lia.
  - assert (S : s32 count <= count /\ s32 count < 2 ^ 31).
    { unfold s32. pose proof (Z.mod_pos_bound count (2 ^ 32) eq_refl).
      pose proof (Z.mod_le count (2 ^ 32) H eq_refl).
      change (2 ^ 32) with (2 * 2 ^ 31) in *. set (h := 2 ^ 31) in *.
      assert (0 < h) by reflexivity.
      destruct (_ <? h) eqn:E; [apply Z.ltb_lt in E|apply Z.ltb_ge in E]; lia. }
    split.
    + intros A. destruct (Z_lt_le_dec count (2 ^ 31)) as [L|L]; [assumption|exfalso].
      assert (P : 0 < 2 ^ 31) by reflexivity.
      assert (B : below count (count - 1)) by (unfold below; lia).
      apply A in B. unfold int_loop_visits in B. apply of_nat_seq_in in B. lia.
    + intros L z. unfold int_loop_visits. rewrite of_nat_seq_in. unfold below.
      assert (E : s32 count = count).
      { unfold s32. rewrite Z.mod_small; [|split; [lia|]; apply Z.lt_trans with (2 ^ 31); [lia|reflexivity]].
        apply Z.ltb_lt in L. rewrite L. reflexivity. }
      rewrite E, Z2Nat.id by lia. reflexivity.
Qed.
Print Assumptions C80_int_loop_partial.

(** ... and between 2^31 and 2^32 items, none is visited, without any message. *)
Theorem C80_int_loop_refuted : forall count, 2 ^ 31 <= count < 2 ^ 32 ->
  int_loop_visits count = [].
Proof.
  intros count H. unfold int_loop_visits, s32.
  assert (0 < 2 ^ 31) by reflexivity.
  rewrite Z.mod_small by lia.
  destruct (count <? 2 ^ 31) eqn:E; [apply Z.ltb_lt in E; lia|].
  replace (Z.to_nat (count - 2 ^ 32)) with 0%nat by lia. reflexivity.
Qed.
Print Assumptions C80_int_loop_refuted.

(** Witnesses: a grid of 1000 x 2000 x 3000 cells is far inside the bound; negative
    coordinates; a grid of 2^22 x 2^21 x 2^21 cells numbers its slice 2^20 negatively and
    reports no cell at all; a fictitious grid of
    1600 x 1600 x 1000 cells is not subdivided at all. *)
Example C80_witness :
  number_of_edges3 1000 2000 3000 <= 2 ^ 63 /\
  number_of_faces3 1000 2000 3000 < 2 ^ 64 /\
  m_node_indices_of3 1000 2000 5999999999 =
    [6009001997; 6009001998; 6009002999; 6009002998; 6011004998; 6011004999; 6011006000; 6011005999] /\
  m_cell_index_at3 10 10 (-1, -2, 3) = 279 /\
  m_cell_index_at3 (2 ^ 22) (2 ^ 21) (0, 0, 2 ^ 20 - 1) = 2 ^ 63 - 2 ^ 43 /\
  m_cell_index_at3 (2 ^ 22) (2 ^ 21) (0, 0, 2 ^ 20) = - 2 ^ 63 /\
  m_number_of_cells3 (2 ^ 22) (2 ^ 21) (2 ^ 21) = 0 /\
  int_loop_visits (1600 * 1600 * 1000) = [] /\ int_loop_visits 3 = [0; 1; 2] /\
  int_loop_visits (2 ^ 32 + 2) = [0; 1].
Proof. repeat split; vm_compute; try reflexivity; discriminate. Qed.
