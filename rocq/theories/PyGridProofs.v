(** Lemmas on the grids used from Python. *)

From Coq Require Import String ZArith Reals Lra Lia List Arith Bool.
From Flocq Require Import Core.Raux.
From Verif Require Import GridModel GridSpec GridGeoModel GridGeoSpec GridMachModel GridMachProofs GridProofs GridGeoProofs
  HashGridModel PyGridModel PyGridSpec.
Import ListNotations.
Open Scope nat_scope.

(** ** Arguments *)
Lemma load_mono : forall p v x, load false p v = Some x -> load true p v = Some x.
Proof.
  intros p v x. destruct p; cbn; try exact (fun H => H); destruct v; cbn; try discriminate; try exact (fun H => H);
  repeat (match goal with
    | |- context [match ?l with [] => _ | _ :: _ => _ end] => destruct l; cbn; try discriminate
    | |- context [same_dtype ?a ?b] => destruct (same_dtype a b); cbn; try discriminate
    end); try exact (fun H => H).
Qed.

Lemma dispatch1 : forall imp p f v x r, load true p v = Some x -> f x = Some r -> dispatch imp [f1 p f] [v] = cast imp r.
Proof.
  intros imp p f v x r L F. unfold dispatch. cbn [first_of]. unfold try_overload.
  cbn [f1 params defaults body load_all]. destruct (load false p v) as [y|] eqn:E.
  - apply load_mono in E. rewrite L in E. injection E as <-. rewrite F. reflexivity.
  - rewrite L, F. reflexivity.
Qed.
Lemma dispatch1_none : forall imp p f v, load true p v = None -> dispatch imp [f1 p f] [v] = Raises.
Proof.
  intros imp p f v L. unfold dispatch. cbn [first_of]. unfold try_overload.
  cbn [f1 params defaults body load_all]. destruct (load false p v) as [y|] eqn:E.
  - apply load_mono in E. congruence.
  - rewrite L. reflexivity.
Qed.

Lemma entries_written : forall d D v l, entries true d D v = Some l <-> written v l /\ length l = D.
Proof.
  intros d D v l. unfold written. split.
  - destruct v; cbn; try discriminate; destruct (Nat.eqb_spec (length l0) D) as [E|E]; intros H; try discriminate; injection H as <-; eauto.
  - intros [[->|(d' & ->)] E]; cbn; rewrite E, Nat.eqb_refl; reflexivity.
Qed.
Lemma entries_none : forall d d' D v, entries true d D v = None -> entries true d' D v = None.
Proof. intros d d' D v. destruct v; exact (fun H => H). Qed.

Lemma load_world : forall D v l, written v l -> length l = D -> load true (PWorld D) v = Some (LWorld l).
Proof. intros. cbn. rewrite (proj2 (entries_written _ _ _ _) (conj H H0)). reflexivity. Qed.
Lemma map_to_int64 : forall c, Forall (fun i => (- 2 ^ 63 <= i < 2 ^ 63)%Z) c -> map to_int64 (map IZR c) = c.
Proof.
  intros c H. rewrite map_map. induction H as [|i c Hi H IH]; [reflexivity|]. cbn [map]. rewrite IH. f_equal. unfold to_int64.
  rewrite Ztrunc_IZR. apply s64_small. assumption.
Qed.
Lemma load_coordinates : forall D v c, integers v c -> length c = D -> load true (PCoordinates D) v = Some (LCoordinates c).
Proof.
  intros D v c [W B] L. cbn. rewrite (proj2 (entries_written Int64 D v (map IZR c))).
  - cbn. rewrite map_to_int64 by assumption. reflexivity.
  - split; [assumption|]. rewrite map_length. assumption.
Qed.
Lemma load_index : forall i, (- 2 ^ 63 <= i < 2 ^ 63)%Z -> load true PIndex (VInt i) = Some (LIndex i).
Proof.
  intros i H. cbn [load as_integer within]. unfold int64_range.
  rewrite (proj2 (Z.leb_le _ _)), (proj2 (Z.ltb_lt _ _)) by lia. reflexivity.
Qed.
Lemma load_unsigned : forall i, (0 <= i < 2 ^ 64)%Z -> load true PUnsigned (VInt i) = Some (LUnsigned i).
Proof.
  intros i H. cbn [load as_integer within]. unfold uint64_range.
  rewrite (proj2 (Z.leb_le _ _)), (proj2 (Z.ltb_lt _ _)) by lia. reflexivity.
Qed.

Lemma vector_no_integer : forall D v l c, 2 <= D -> written v l -> length l = D -> as_integer c v = None.
Proof. intros D v l c HD [->|(d & ->)] L; [reflexivity|]. destruct l as [|x [|y l]]; cbn in *; try lia; reflexivity. Qed.
Lemma integer_no_vector : forall D v z c d, 2 <= D -> as_integer true v = Some z -> entries c d D v = None.
Proof.
  intros D v z c d HD. destruct v; try discriminate; try reflexivity. destruct l as [|x [|y l]]; try discriminate.
  intros _. cbn. destruct D as [|[|D]]; try lia. destruct (_ || _); reflexivity.
Qed.

(** The two overloads of node_indices_of and cell_at *)
Lemma dispatch_coordinates : forall imp D f h v c r, 2 <= D -> integers v c -> length c = D -> f (LCoordinates c) = Some r ->
  dispatch imp [f1 (PCoordinates D) f; f1 PIndex h] [v] = cast imp r.
Proof.
  intros imp D f h v c r HD W L F. pose proof (load_coordinates D v c W L) as X. unfold dispatch.
  assert (N : forall conv, load conv PIndex v = None).
  { intros conv. cbn [load]. rewrite (vector_no_integer D v (map IZR c)); [reflexivity|assumption|apply W|rewrite map_length; assumption]. }
  cbn [first_of]. unfold try_overload. cbn [f1 params defaults body load_all]. rewrite !N. destruct (load false (PCoordinates D) v) as [y|] eqn:E.
  - apply load_mono in E. rewrite X in E. injection E as <-. rewrite F. reflexivity.
  - rewrite X, F. reflexivity.
Qed.
Lemma dispatch_index : forall imp D f h i r, (- 2 ^ 63 <= i < 2 ^ 63)%Z -> h (LIndex i) = Some r ->
  dispatch imp [f1 (PCoordinates D) f; f1 PIndex h] [VInt i] = cast imp r.
Proof.
  intros imp D f h i r Hi F. unfold dispatch. pose proof (load_index i Hi) as X.
  assert (N : forall conv, load conv (PCoordinates D) (VInt i) = None) by reflexivity.
  cbn [first_of]. unfold try_overload. cbn [f1 params defaults body load_all]. rewrite !N.
  change (load false PIndex (VInt i)) with (load true PIndex (VInt i)). rewrite X, F. reflexivity.
Qed.

(** ** Numbering *)
Lemma usual_form : forall g, usual g ->
  (exists a b, g = [a; b] /\ (0 < ax_n a)%Z /\ (0 < ax_n b)%Z /\ (0 < ax_size a)%R /\ (0 < ax_size b)%R /\ ((ax_n a + 1) * (ax_n b + 1) <= 2 ^ 63)%Z) \/
  (exists a b c, g = [a; b; c] /\ (0 < ax_n a)%Z /\ (0 < ax_n b)%Z /\ (0 < ax_n c)%Z /\ (0 < ax_size a)%R /\ (0 < ax_size b)%R /\ (0 < ax_size c)%R /\
     ((ax_n a + 1) * (ax_n b + 1) * (ax_n c + 1) <= 2 ^ 63)%Z).
Proof.
  intros g ((_ & V) & [L|L] & P).
  - destruct g as [|a [|b [|]]]; try discriminate L. left. exists a, b. rewrite !Forall_cons_iff in V. unfold valid_axis in V. cbn [map fold_right] in P.
    repeat split; try tauto. rewrite <- (Z.mul_1_r (ax_n b + 1)). exact P.
  - destruct g as [|a [|b [|c [|]]]]; try discriminate L. right. exists a, b, c. rewrite !Forall_cons_iff in V. unfold valid_axis in V. cbn [map fold_right] in P.
    repeat split; try tauto. rewrite <- Z.mul_assoc. rewrite <- (Z.mul_1_r (ax_n c + 1)). exact P.
Qed.

Lemma cell_of2 : forall a b c, cell_of [a; b] c -> exists i j, c = [i; j] /\ box2 (ax_n a) (ax_n b) (i, j).
Proof.
  intros a b c H. inversion H as [|? i ? c1 Hi H1]; subst. inversion H1 as [|? j ? c2 Hj H2]; subst. inversion H2; subst.
  exists i, j. split; [reflexivity|]. split; assumption.
Qed.
Lemma cell_of3 : forall a b d c, cell_of [a; b; d] c -> exists i j k, c = [i; j; k] /\ box3 (ax_n a) (ax_n b) (ax_n d) (i, j, k).
Proof.
  intros a b d c H. inversion H as [|? i ? c1 Hi H1]; subst. inversion H1 as [|? j ? c2 Hj H2]; subst.
  inversion H2 as [|? k ? c3 Hk H3]; subst. inversion H3; subst. exists i, j, k. repeat split; try assumption; apply Hi || apply Hj || apply Hk.
Qed.
Lemma node_of2 : forall a b c, node_of [a; b] c -> exists i j, c = [i; j] /\ box2 (ax_n a + 1) (ax_n b + 1) (i, j).
Proof.
  intros a b c H. inversion H as [|? i ? c1 Hi H1]; subst. inversion H1 as [|? j ? c2 Hj H2]; subst. inversion H2; subst.
  exists i, j. split; [reflexivity|]. cbn in *. unfold below. lia.
Qed.
Lemma node_of3 : forall a b d c, node_of [a; b; d] c -> exists i j k, c = [i; j; k] /\ box3 (ax_n a + 1) (ax_n b + 1) (ax_n d + 1) (i, j, k).
Proof.
  intros a b d c H. inversion H as [|? i ? c1 Hi H1]; subst. inversion H1 as [|? j ? c2 Hj H2]; subst.
  inversion H2 as [|? k ? c3 Hk H3]; subst. inversion H3; subst. exists i, j, k. split; [reflexivity|]. cbn in *. unfold below. lia.
Qed.

Lemma rank_below : forall ns c, Forall2 (fun n i => (0 <= i < n)%Z) ns c -> (0 <= rank ns c < product ns)%Z.
Proof.
  intros ns c H. induction H as [|n i ns c Hi H IH]; [cbn; lia|]. cbn [rank]. change (product (n :: ns)) with (n * product ns)%Z. nia.
Qed.
Lemma cell_of_cells : forall g c, cell_of g c -> Forall2 (fun n i => (0 <= i < n)%Z) (cells g) c.
Proof. intros g c H. induction H; constructor; assumption. Qed.
Lemma node_of_nodes : forall g c, node_of g c -> Forall2 (fun n i => (0 <= i < n)%Z) (nodes g) c.
Proof. intros g c H. induction H; constructor; [lia|assumption]. Qed.

Lemma cells_product : forall g, usual g -> (0 < product (cells g) < 2 ^ 63)%Z.
Proof.
  intros g H. destruct (usual_form g H) as [(a & b & -> & A & B & _ & _ & P)|(a & b & c & -> & A & B & C & _ & _ & _ & P)]; cbn [cells map product fold_right].
  - nia.
  - assert (0 < ax_n a * ax_n b)%Z by nia. assert (ax_n a * ax_n b < (ax_n a + 1) * (ax_n b + 1))%Z by nia. nia.
Qed.
Lemma nodes_product : forall g, usual g -> (0 < product (nodes g) <= 2 ^ 63)%Z.
Proof.
  intros g H. destruct H as (V & _ & P). split; [|exact P]. clear P. destruct V as [_ V]. induction V as [|a g [A _] V IH]; [reflexivity|].
  cbn [nodes map]. change (0 < (ax_n a + 1) * product (nodes g))%Z. nia.
Qed.

Lemma cells_numbered : forall g c, usual g -> cell_of g c ->
  index_of_cell (subdivisions g) c = rank (cells g) c /\ coordinates_of_cell (subdivisions g) (rank (cells g) c) = c.
Proof.
  intros g c U H. pose proof (rank_below _ _ (cell_of_cells g c H)) as RB. pose proof (cells_product g U) as CP. pose proof fits_u as FU.
  destruct (usual_form g U) as [(a & b & -> & A & B & _ & _ & P)|(a & b & d & -> & A & B & C & _ & _ & _ & P)].
  - destruct (cell_of2 a b c H) as (i & j & -> & Hb). destruct (cells2_inverse (ax_n a) (ax_n b) A B) as [I _]. destruct (I _ Hb) as [_ J].
    assert (E : cell_index_at2 (ax_n a) (i, j) = rank (cells [a; b]) [i; j]) by (cbn; ring).
    cbn [subdivisions map index_of_cell coordinates_of_cell]. rewrite m_cell_index2 by (rewrite E; lia). split; [exact E|].
    rewrite m_cell_coords2.
    + rewrite <- E, J. reflexivity.
    + nia.
    + rewrite <- E in RB |- *. lia.
  - destruct (cell_of3 a b d c H) as (i & j & k & -> & Hb). destruct (cells3_inverse (ax_n a) (ax_n b) (ax_n d) A B C) as [I _]. destruct (I _ Hb) as [_ J].
    assert (E : cell_index_at3 (ax_n a) (ax_n b) (i, j, k) = rank (cells [a; b; d]) [i; j; k]) by (cbn; ring).
    cbn [subdivisions map index_of_cell coordinates_of_cell]. rewrite m_cell_index3 by (rewrite E; lia). split; [exact E|].
    rewrite m_cell_coords3; try assumption.
    + rewrite <- E, J. reflexivity.
    + cbn in CP. assert (0 < ax_n a * ax_n b)%Z by nia. nia.
    + rewrite <- E in RB |- *. lia.
Qed.
Lemma nodes_numbered : forall g c, usual g -> node_of g c ->
  index_of_node (subdivisions g) c = rank (nodes g) c /\ coordinates_of_node (subdivisions g) (rank (nodes g) c) = c.
Proof.
  intros g c U H. pose proof (rank_below _ _ (node_of_nodes g c H)) as RB. pose proof (nodes_product g U) as CP. pose proof fits_u as FU.
  destruct (usual_form g U) as [(a & b & -> & A & B & _ & _ & P)|(a & b & d & -> & A & B & C & _ & _ & _ & P)].
  - destruct (node_of2 a b c H) as (i & j & -> & Hb). destruct (nodes2_inverse (ax_n a) (ax_n b) A B) as [I _]. destruct (I _ Hb) as [_ J].
    assert (E : node_index_at2 (ax_n a) (i, j) = rank (nodes [a; b]) [i; j]) by (cbn; ring).
    cbn [subdivisions map index_of_node coordinates_of_node]. rewrite m_node_index2 by (rewrite E; lia). split; [exact E|].
    rewrite m_node_coords2; try assumption.
    + rewrite <- E, J. reflexivity.
    + nia.
    + rewrite <- E in RB |- *. lia.
  - destruct (node_of3 a b d c H) as (i & j & k & -> & Hb). destruct (nodes3_inverse (ax_n a) (ax_n b) (ax_n d) A B C) as [I _]. destruct (I _ Hb) as [_ J].
    assert (E : node_index_at3 (ax_n a) (ax_n b) (i, j, k) = rank (nodes [a; b; d]) [i; j; k]) by (cbn; ring).
    cbn [subdivisions map index_of_node coordinates_of_node]. rewrite m_node_index3 by (rewrite E; lia). split; [exact E|].
    rewrite m_node_coords3; try assumption.
    + rewrite <- E, J. reflexivity.
    + assert (0 < (ax_n a + 1) * (ax_n b + 1))%Z by nia. nia.
    + rewrite <- E in RB |- *. lia.
Qed.
Lemma cell_ok : forall g, usual g -> cell_divisors_vanish (subdivisions g) = false.
Proof.
  intros g U. pose proof fits_u as FU.
  destruct (usual_form g U) as [(a & b & -> & A & B & _ & _ & P)|(a & b & d & -> & A & B & C & _ & _ & _ & P)]; cbn [subdivisions map cell_divisors_vanish].
  - apply Z.eqb_neq. lia.
  - apply orb_false_iff. split; apply Z.eqb_neq; [|lia]. pose proof (cells_product _ U) as CP. cbn in CP. rewrite umul_u64, u64_small; [nia|].
    assert (0 < ax_n a * ax_n b)%Z by nia. nia.
Qed.
Lemma node_ok : forall g, usual g -> node_divisors_vanish (subdivisions g) = false.
Proof.
  intros g U. pose proof fits_u as FU.
  destruct (usual_form g U) as [(a & b & -> & A & B & _ & _ & P)|(a & b & d & -> & A & B & C & _ & _ & _ & P)]; cbn [subdivisions map node_divisors_vanish].
  - apply Z.eqb_neq. rewrite uadd_u64, u64_small; [lia|nia].
  - assert (0 < (ax_n a + 1) * (ax_n b + 1))%Z by nia.
    rewrite !uadd_u64, !u64_small by nia. apply orb_false_iff. split; apply Z.eqb_neq; [|lia]. rewrite umul_u64, u64_small; nia.
Qed.

(** ** Methods *)
Lemma length_usual : forall g, usual g -> 2 <= length g.
Proof. intros g (_ & [L|L] & _); lia. Qed.
Lemma length_cell : forall g c, cell_of g c -> length c = length g.
Proof. intros g c H. induction H; cbn; congruence. Qed.
Lemma length_node : forall g c, node_of g c -> length c = length g.
Proof. intros g c H. induction H; cbn; congruence. Qed.
Lemma call_chain : forall imp g name chain vs, find_method (Grid g) name = Some chain -> call imp g name vs = dispatch imp chain vs.
Proof. intros. unfold call, call_of. rewrite H. reflexivity. Qed.
Lemma base_chain : forall imp g name chain vs, find_method (BaseGrid g) name = Some chain -> call_of imp (BaseGrid g) name vs = dispatch imp chain vs.
Proof. intros. unfold call_of. rewrite H. reflexivity. Qed.
Ltac chain_of U :=
  match type of U with usual ?g =>
    let L := fresh "L" in erewrite call_chain by (destruct U as (_ & [L|L] & _);
      [destruct g as [|? [|? [|]]]; try discriminate L; reflexivity|destruct g as [|? [|? [|? [|]]]]; try discriminate L; reflexivity])
  end.
