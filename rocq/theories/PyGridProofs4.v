(** Lemmas on the grids used from Python: construction, corners, location of points, elements of the cells, refusals. *)

From Coq Require Import String ZArith Reals Lra Lia List Arith Bool.
From Flocq Require Import Core.Raux.
From Verif Require Import GridModel GridSpec GridGeoModel GridGeoSpec GridMachModel GridMachProofs GridProofs GridGeoProofs
  HashGridModel HashGridProofs PyGridModel PyGridSpec PyGridProofs PyGridProofs2 PyGridProofs3.
Import ListNotations.
Open Scope nat_scope.

(** ** Construction *)
Lemma load_subdivisions : forall D v n, written v (map IZR n) -> Forall (fun k => (0 <= k < 2 ^ 64)%Z) n -> length n = D ->
  load true (PSubdivisions D) v = Some (LSubdivisions n).
Proof.
  intros D v n W B L. cbn [load]. rewrite (proj2 (entries_written UInt64 D v (map IZR n))) by (split; [assumption|rewrite map_length; assumption]).
  cbn [option_map]. do 2 f_equal. rewrite map_map. clear W L. induction B as [|k n Hk B IH]; [reflexivity|]. cbn [map]. rewrite IH. f_equal.
  unfold to_uint64. rewrite Ztrunc_IZR. apply u64_small. assumption.
Qed.
Lemma load_all_convert : forall ps vs l, load_all true ps [] vs = Some l ->
  match load_all false ps [] vs with Some l => Some l | None => load_all true ps [] vs end = Some l.
Proof.
  intros ps vs l H. destruct (load_all false ps [] vs) as [l'|] eqn:E; [|exact H]. apply load_all_mono in E. congruence.
Qed.
Lemma construct_given : forall D name av nv sv anchor n size,
  (D = 2 /\ name = "Grid2D" \/ D = 3 /\ name = "Grid3D")%string ->
  load true (PWorld D) av = Some (LWorld anchor) -> load true (PSubdivisions D) nv = Some (LSubdivisions n) ->
  load true (PWorld D) sv = Some (LWorld size) -> construct name [av; nv; sv] = Some (map3 Axis anchor n size).
Proof.
  intros D name av nv sv anchor n size HD A N S.
  assert (X : load_all true [PWorld D; PSubdivisions D; PWorld D] [] [av; nv; sv] = Some [LWorld anchor; LSubdivisions n; LWorld size]).
  { cbn [load_all]. rewrite A, N, S. reflexivity. }
  apply load_all_convert in X. unfold construct, make_axes.
  destruct HD as [[-> ->]|[-> ->]]; cbn [String.eqb Ascii.eqb Bool.eqb]; rewrite X; reflexivity.
Qed.
Lemma axes_form : forall D anchor n size, length anchor = D -> length n = D -> length size = D ->
  length (map3 Axis anchor n size) = D /\ map ax_anchor (map3 Axis anchor n size) = anchor /\
  map ax_n (map3 Axis anchor n size) = n /\ map ax_size (map3 Axis anchor n size) = size.
Proof.
  induction D as [|D IH]; intros [|a anchor] [|k n] [|s size] A N S; try discriminate; [repeat split|].
  cbn in A, N, S. injection A as A. injection N as N. injection S as S. destruct (IH anchor n size A N S) as (E1 & E2 & E3 & E4).
  cbn [map3 map length ax_anchor ax_n ax_size]. rewrite E1, E2, E3, E4. repeat split.
Qed.
Lemma axes_usual : forall D g, (D = 2 \/ D = 3) -> length g = D -> Forall (fun s => 0 < s)%R (map ax_size g) ->
  Forall (fun k => 0 < k)%Z (map ax_n g) -> (product (map Z.succ (map ax_n g)) <= 2 ^ 63)%Z -> usual g.
Proof.
  intros D g HD L S N P. unfold usual, valid_grid. rewrite L. repeat split; try (destruct HD; subst; lia).
  - clear P. rewrite Forall_map in S, N. rewrite Forall_forall in *. intros a Ha. split; [apply N|apply S]; assumption.
  - rewrite map_map in P. exact P.
Qed.
Lemma length2 : forall A (l : list A), length l = 2 -> exists a b, l = [a; b].
Proof. intros A [|a [|b [|]]] H; try discriminate. eauto. Qed.
Lemma length3 : forall A (l : list A), length l = 3 -> exists a b c, l = [a; b; c].
Proof. intros A [|a [|b [|c [|]]]] H; try discriminate. eauto. Qed.

(** ** Counts, cells and nodes *)
Lemma counts : forall g, usual g -> count_cells (subdivisions g) = product (cells g) /\ count_nodes (subdivisions g) = product (nodes g).
Proof.
  intros g U. pose proof (cells_product g U) as C. pose proof (nodes_product g U) as N. pose proof fits_u as FU.
  destruct (usual_form g U) as [(a & b & -> & A & B & _)|(a & b & d & -> & A & B & D & _)];
    cbn [subdivisions map count_cells count_nodes cells nodes product fold_right] in *.
  - unfold m_number_of_cells2, m_number_of_nodes2.
    split; [apply umul_exact|apply umul_exact]; try (rewrite !Z.mul_1_r in *; mcong); lia.
  - unfold m_number_of_cells3, m_number_of_nodes3.
    split; [apply umul_exact|apply umul_exact]; try (rewrite !Z.mul_1_r, ?Z.mul_assoc in *; mcong); lia.
Qed.
Lemma rank_onto : forall ns i, Forall (fun n => 0 < n)%Z ns -> (0 <= i < product ns)%Z ->
  exists c, Forall2 (fun n i => 0 <= i < n)%Z ns c /\ rank ns c = i.
Proof.
  intros ns i H. revert i. induction H as [|n ns Hn H IH]; intros i Hi.
  - exists []. split; [constructor|]. cbn in *. lia.
  - change (product (n :: ns)) with (n * product ns)%Z in Hi. destruct (IH (i / n)%Z) as (c & F & E).
    + split; [apply Z.div_pos; lia|apply Z.div_lt_upper_bound; lia].
    + exists ((i mod n)%Z :: c). split; [constructor; [apply Z.mod_pos_bound; assumption|assumption]|]. cbn [rank]. rewrite E.
      rewrite (Z.div_mod i n) at 3 by lia. lia.
Qed.
Lemma cells_onto : forall g i, usual g -> (0 <= i < product (cells g))%Z -> exists c, cell_of g c /\ rank (cells g) c = i.
Proof.
  intros g i ((_ & V) & _) Hi. destruct (rank_onto (cells g) i) as (c & F & E); [|assumption|].
  - unfold cells. rewrite Forall_map. rewrite Forall_forall in *. intros a Ha. apply (V a Ha).
  - exists c. split; [|assumption]. clear -F. unfold cells in F. revert c F. induction g as [|a g IH]; intros c F; inversion F; subst; constructor; [assumption|]. apply IH. assumption.
Qed.
Lemma nodes_onto : forall g i, usual g -> (0 <= i < product (nodes g))%Z -> exists c, node_of g c /\ rank (nodes g) c = i.
Proof.
  intros g i ((_ & V) & _) Hi. destruct (rank_onto (nodes g) i) as (c & F & E); [|assumption|].
  - unfold nodes. rewrite Forall_map. rewrite Forall_forall in *. intros a Ha. pose proof (proj1 (V a Ha)). lia.
  - exists c. split; [|assumption]. clear -F. unfold nodes in F. revert c F. induction g as [|a g IH]; intros c F; inversion F; subst; constructor; [lia|]. apply IH. assumption.
Qed.
Lemma integers_length : forall v c D, integers v c -> length c = D -> exists l, written v l /\ length l = D.
Proof. intros v c D [W _] L. exists (map IZR c). split; [assumption|]. rewrite map_length. assumption. Qed.

Lemma cell_calls : forall imp g c v, usual g -> cell_of g c -> integers v c ->
  call imp g "cell_index_at"%string [v] = Returns (VInt (rank (cells g) c)) /\
  call imp g "cell_coordinates_at"%string [VInt (rank (cells g) c)] = Returns (VArray Int64 (map IZR c)).
Proof.
  intros imp g c v U C W. destruct (cells_numbered g c U C) as [E1 E2]. pose proof (rank_below _ _ (cell_of_cells g c C)) as RB.
  pose proof (cells_product g U) as CP. split; chain_of U; cbn [snd].
  - rewrite (dispatch1 imp _ _ _ _ _ (load_coordinates (length g) v c W (length_cell g c C)) eq_refl). rewrite E1. reflexivity.
  - rewrite (dispatch1 imp _ _ _ _ _ (load_index (rank (cells g) c) ltac:(lia)) eq_refl). rewrite cell_ok by assumption. cbn [guarded]. rewrite E2. reflexivity.
Qed.
Lemma node_calls : forall imp g c v, usual g -> node_of g c -> integers v c ->
  call imp g "node_index_at"%string [v] = Returns (VInt (rank (nodes g) c)) /\
  call imp g "node_coordinates_at"%string [VInt (rank (nodes g) c)] = Returns (VArray Int64 (map IZR c)) /\
  call imp g "node"%string [VInt (rank (nodes g) c)] = Returns (VArray Float64 (position g c)).
Proof.
  intros imp g c v U C W. destruct (nodes_numbered g c U C) as [E1 E2]. pose proof (rank_below _ _ (node_of_nodes g c C)) as RB.
  pose proof (nodes_product g U) as CP. split; [|split]; chain_of U; cbn [snd].
  - rewrite (dispatch1 imp _ _ _ _ _ (load_coordinates (length g) v c W (length_node g c C)) eq_refl). rewrite E1. reflexivity.
  - rewrite (dispatch1 imp _ _ _ _ _ (load_index (rank (nodes g) c) ltac:(lia)) eq_refl). rewrite node_ok by assumption. cbn [guarded]. rewrite E2. reflexivity.
  - rewrite (dispatch1 imp _ _ _ _ _ (load_index (rank (nodes g) c) ltac:(lia)) eq_refl). rewrite node_ok by assumption. cbn [guarded]. rewrite E2.
    rewrite node_positions; [reflexivity|apply U|apply length_node; assumption].
Qed.

(** ** Corners *)
Lemma corners_of_cell : forall g c, usual g -> cell_of g c ->
  nodes_of_cell (subdivisions g) c = map (fun d => rank (nodes g) (plus c d)) (corners (length g)).
Proof.
  intros g c U C. destruct (usual_form g U) as [(a & b & -> & A & B & _)|(a & b & d & -> & A & B & D & _)].
  - destruct (cell_of2 a b c C) as (i & j & -> & [Hi Hj]). unfold below in *. cbn [subdivisions map nodes_of_cell].
    rewrite !(node2_rank a b) by (try assumption; cbn; unfold below; lia). cbn. repeat rewrite Z.add_0_r. reflexivity.
  - destruct (cell_of3 a b d c C) as (i & j & k & -> & Hi & Hj & Hk). unfold below in *. cbn [subdivisions map nodes_of_cell].
    rewrite !(node3_rank a b d) by (try assumption; cbn; unfold below; lia). cbn. repeat rewrite Z.add_0_r. reflexivity.
Qed.
Lemma corner_node : forall g c d, usual g -> cell_of g c -> In d (corners (length g)) -> node_of g (plus c d).
Proof.
  intros g c d U C H. destruct (usual_form g U) as [(a & b & -> & A & B & _)|(a & b & e & -> & A & B & D & _)].
  - destruct (cell_of2 a b c C) as (i & j & -> & [Hi Hj]). unfold below in *. cbn in H.
    repeat (destruct H as [<-|H]); try contradiction; cbn; repeat constructor; lia.
  - destruct (cell_of3 a b e c C) as (i & j & k & -> & Hi & Hj & Hk). unfold below in *. cbn in H.
    repeat (destruct H as [<-|H]); try contradiction; cbn; repeat constructor; lia.
Qed.
Lemma corners_calls : forall imp g c v, usual g -> cell_of g c -> integers v c ->
  call imp g "node_indices_of"%string [v] = Returns (VList (map IZR (map (fun d => rank (nodes g) (plus c d)) (corners (length g))))) /\
  call imp g "node_indices_of"%string [VInt (rank (cells g) c)] = Returns (VList (map IZR (map (fun d => rank (nodes g) (plus c d)) (corners (length g))))).
Proof.
  intros imp g c v U C W. destruct (cells_numbered g c U C) as [E1 E2]. pose proof (rank_below _ _ (cell_of_cells g c C)) as RB.
  pose proof (cells_product g U) as CP. pose proof (length_usual g U) as LU. split; chain_of U; cbn [snd app].
  - erewrite dispatch_coordinates; [|exact LU|exact W|apply length_cell; assumption|reflexivity]. cbn [cast]. rewrite corners_of_cell by assumption. reflexivity.
  - erewrite dispatch_index; [|lia|reflexivity]. rewrite cell_ok by assumption. cbn [guarded cast]. rewrite E2, corners_of_cell by assumption. reflexivity.
Qed.

(** ** Points *)
Lemma try_mono_some : forall vs o r, try_overload false vs o = Some r -> try_overload true vs o = Some r.
Proof.
  intros vs o r. unfold try_overload. destruct (load_all false (params o) (defaults o) vs) as [l|] eqn:E; [|discriminate].
  rewrite (load_all_mono _ _ _ _ E). exact (fun H => H).
Qed.
Lemma dispatch_one : forall imp o vs r, try_overload true vs o = Some r -> dispatch imp [o] vs = cast imp r.
Proof.
  intros imp o vs r H. unfold dispatch. cbn [first_of]. destruct (try_overload false vs o) as [r'|] eqn:E.
  - apply try_mono_some in E. rewrite H in E. injection E as <-. reflexivity.
  - rewrite H. reflexivity.
Qed.

Lemma try_world_bool : forall D ds f v w p b, written v p -> length p = D -> load true PBool w = Some (LBool b) ->
  try_overload true [v; w] (f2 (PWorld D) PBool ds (on_world_bool f)) = Some (f p b).
Proof.
  intros D ds f v w p b W L E. unfold try_overload. cbn [f2 params defaults body load_all]. rewrite (load_world D v p W L), E. reflexivity.
Qed.
Lemma try_world_bool_default : forall D d f v p, written v p -> length p = D ->
  try_overload true [v] (f2 (PWorld D) PBool [LBool d] (on_world_bool f)) = Some (f p d).
Proof.
  intros D d f v p W L. unfold try_overload. cbn [f2 params defaults body load_all]. rewrite (load_world D v p W L). reflexivity.
Qed.
Lemma try_world_float : forall D ds f v w p e, written v p -> length p = D -> load true PFloat w = Some (LFloat e) ->
  try_overload true [v; w] (f2 (PWorld D) PFloat ds (on_world_float f)) = Some (f p e).
Proof.
  intros D ds f v w p b W L E. unfold try_overload. cbn [f2 params defaults body load_all]. rewrite (load_world D v p W L), E. reflexivity.
Qed.
Lemma try_world_float_default : forall D d f v p, written v p -> length p = D ->
  try_overload true [v] (f2 (PWorld D) PFloat [LFloat d] (on_world_float f)) = Some (f p d).
Proof.
  intros D d f v p W L. unfold try_overload. cbn [f2 params defaults body load_all]. rewrite (load_world D v p W L). reflexivity.
Qed.

Lemma cell_index_rank : forall g c, usual g -> cell_of g c -> cell_index_at (subdivisions g) c = rank (cells g) c.
Proof.
  intros g c U C. destruct (usual_form g U) as [(a & b & -> & _)|(a & b & d & -> & _)].
  - destruct (cell_of2 a b c C) as (i & j & -> & _). cbn. ring.
  - destruct (cell_of3 a b d c C) as (i & j & k & -> & _). cbn. ring.
Qed.
Lemma length_in_grid : forall g p, in_grid g p -> length p = length g.
Proof. intros g p H. induction H; cbn; congruence. Qed.
Lemma length_in_half : forall g p, in_grid_half_open g p -> length p = length g.
Proof. intros g p H. induction H; cbn; congruence. Qed.

Lemma contains_spec : forall g p e, Forall valid_axis g -> length p = length g ->
  (contains g p e = true <-> Forall2 (fun a x => ax_anchor a - e * ax_size a <= x <= ax_anchor a + ax_size a + e * ax_size a)%R g p).
Proof.
  intros g p e V. revert p. induction V as [|a g Va V IH]; intros [|x p] L; try discriminate.
  - split; [constructor|reflexivity].
  - unfold contains in *. cbn [map2 forallb]. rewrite andb_true_iff. rewrite IH by (cbn in L; congruence).
    assert (E : ax_contains e a x = true <-> (ax_anchor a - e * ax_size a <= x <= ax_anchor a + ax_size a + e * ax_size a)%R).
    { destruct Va as [_ S]. unfold ax_contains. set (d := ((x - ax_anchor a) / ax_size a)%R).
      assert (X : x = (ax_anchor a + d * ax_size a)%R) by (unfold d; field; lra). clearbody d. subst x.
      destruct (Rlt_dec d (0 - e)); [split; [discriminate|]; intros; exfalso; nra|].
      destruct (Rlt_dec (1 + e) d); [split; [discriminate|]; intros; exfalso; nra|]. split; [intros _; split; nra|reflexivity]. }
    rewrite E. split; [intros [H1 H2]; constructor; assumption|intros H; inversion H; subst; split; assumption].
Qed.

(** ** Elements of the cells *)
Lemma cell_corners3 : forall a b d c, usual [a; b; d] -> cell_of [a; b; d] c ->
  map (map3 ax_cell_world [a; b; d] c) hexa_corners = map (fun e => position [a; b; d] (plus c e)) (corners 3).
Proof.
  intros a b d c U C. destruct (cell_of3 a b d c C) as (i & j & k & -> & _).
  destruct (usual_form _ U) as [(? & ? & E & _)|(a' & b' & d' & E & A & B & D & A' & B' & D' & _)]; [discriminate E|]. injection E as <- <- <-.
  assert (X : forall ax i, (0 < ax_n ax)%Z -> ax_cell_world ax i (-1) = plane ax (i + 0) /\ ax_cell_world ax i 1 = plane ax (i + 1)).
  { intros ax n Hn. apply IZR_lt in Hn. unfold ax_cell_world, ax_cell_center, plane, ax_H. rewrite !plus_IZR. split; field; lra. }
  destruct (X a i A) as [A1 A2]. destruct (X b j B) as [B1 B2]. destruct (X d k D) as [D1 D2].
  unfold hexa_corners, corners, square_corners, position, plus. cbn [Nat.eqb map map2 map3 app].
  rewrite A1, A2, B1, B2, D1, D2. reflexivity.
Qed.

(** ** Indices outside of the grid *)
Lemma node_out_of_range : forall imp g i, usual g -> (product (nodes g) <= i < 2 ^ 63)%Z ->
  exists p, call imp g "node"%string [VInt i] = Returns (VArray Float64 p) /\ ~ in_grid g p.
Proof.
  intros imp g i U Hi. pose proof (nodes_product g U) as NP. pose proof fits_u as FU.
  eexists. split.
  - chain_of U. cbn [snd]. rewrite (dispatch1 imp _ _ _ _ _ (load_index i ltac:(lia)) eq_refl). rewrite node_ok by assumption. cbn [guarded cast]. reflexivity.
  - destruct (usual_form g U) as [(a & b & -> & A & B & A' & B' & P)|(a & b & d & -> & A & B & D & A' & B' & D' & P)];
      cbn [nodes map product fold_right] in Hi; rewrite !Z.mul_1_r in Hi; cbn [subdivisions map coordinates_of_node].
    + rewrite m_node_coords2 by nia. unfold node_coordinates_at2. intros H. cbn [node map2] in H.
      inversion H as [|? ? ? ? _ H1]; subst. inversion H1 as [|? ? ? ? [_ Hx] _]; subst. clear H H1.
      assert (ax_n b + 1 <= i / (ax_n a + 1))%Z as J by (apply Z.div_le_lower_bound; nia).
      assert (IZR (ax_n b) + 1 <= IZR (i / (ax_n a + 1)))%R as J' by (rewrite <- plus_IZR; apply IZR_le; exact J).
      assert (valid_axis b) as VB by (split; assumption). rewrite (size_H b VB) in Hx. unfold ax_node in Hx. pose proof (H_pos b VB). nra.
    + rewrite m_node_coords3 by nia. unfold node_coordinates_at3. intros H. cbn [node map2] in H.
      inversion H as [|? ? ? ? _ H1]; subst. inversion H1 as [|? ? ? ? _ H2]; subst. inversion H2 as [|? ? ? ? [_ Hx] _]; subst. clear H H1 H2.
      assert (ax_n d + 1 <= i / ((ax_n a + 1) * (ax_n b + 1)))%Z as J by (apply Z.div_le_lower_bound; nia).
      assert (IZR (ax_n d) + 1 <= IZR (i / ((ax_n a + 1) * (ax_n b + 1))))%R as J' by (rewrite <- plus_IZR; apply IZR_le; exact J).
      assert (valid_axis d) as VB by (split; assumption). rewrite (size_H d VB) in Hx. unfold ax_node in Hx. pose proof (H_pos d VB). nra.
Qed.
