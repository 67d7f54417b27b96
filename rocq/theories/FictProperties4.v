(** C73: the creation of the fictitious grid, from the surface to the sparse grid, and its repetition. *)

From Coq Require Import ZArith Reals Lra Lia Permutation Relations.
From Coq Require Import List Arith Bool.
From Verif Require Import GridModel GridSpec GridProofs GridGeoModel GridGeoSpec GridGeoProofs GridEnclosingProofs ShapeModel Sums FictModel FictSpec
  FictProofs FictProofs2 FictProofs3 FictProofs4 FictProofs5 FictProofs6 FictProofs8 FictProofs9 FictProofs10 FictProperties FictProperties2 FictProperties3.
Import ListNotations.
Open Scope nat_scope.

(** ** With an implicit surface *)

Lemma tag_nothing : forall (A : Type) g (cells : list (tree A)) type st, valid_cells g cells ->
  create_regions (subdivisions g) cells type = Some (Ok st) -> (forall p, a_leaf cells p -> type p <> Undefined) ->
  forall p, a_leaf cells p -> snd (tag_inside (tag_outside (subdivisions g) (regions st, type))) p = type p.
Proof.
  intros A g cells type st Hv E U p Lp.
  destruct (create_regions_spec A g cells Hv type) as (st' & E' & L). rewrite E in E'. inversion E'; subst st'. clear E'.
  change (outer (faces_of (subdivisions g) cells) type (all_leaves cells) st /\ (forall y, a_leaf cells y -> region_id st y <> (-1)%Z))
    with (labelled A g cells type st) in L. 
  destruct (tagging_spec A g cells Hv type st L) as [_ T2]. destruct (T2 p Lp) as (i & r & Ei & I & ->).
  destruct (labelled_region A g cells Hv type st L p Lp) as (j & ty & l & Ej & Ij & _ & Et & Cl).
  assert (i = j) by (eapply (labelled_unique A g cells type st L); eassumption). subst j. rewrite Ei in Ej. inversion Ej; subst r.
  unfold is_out, is_undefined. cbn [fst]. rewrite Et. destruct (type_eqb_spec (type p) Undefined) as [C|_]; [exfalso; apply (U p Lp C)|]. reflexivity.
Qed.

(** The grid is created; every cell and every leaf has the type dictated by the values at its corners; with the default
    threshold the elements are exactly the cells with a corner where the function is negative.
    Missing: functions that vanish at a node of the grid (C39) and, in three dimensions, components that never tagged a tessellated
    surface (below). *)
Theorem C73_implicit_surface_partial : forall g iso n s, valid_grid g -> (length g = 2 \/ length g = 3) ->
  (length g = 3 -> Z.to_nat (number_of_cells (subdivisions g)) <= length (triangles_of_cell s)) ->
  (forall c x, cell_of g c -> corner_of g c x -> iso x <> 0%R) ->
  exists comp, create_grid_from_iso_surface g iso n 0 s = Some (Ok comp) /\
    (forall c ty, cell_of g c ->
       nth_error (cells_types (surface comp)) (Z.to_nat (cell_index_at (subdivisions g) c)) = Some ty <-> type_at_corners iso g c ty) /\
    (forall p, a_leaf (forest comp) p ->
       (leaf_type comp p = Inside <-> forall x, In x (map (box_world (element g p)) (corners (length g))) -> (iso x < 0)%R) /\
       (leaf_type comp p = Outside <-> forall x, In x (map (box_world (element g p)) (corners (length g))) -> (0 < iso x)%R) /\
       leaf_type comp p <> Undefined) /\
    numbering (Z.to_nat (number_of_cells (subdivisions g)))
      (fun i => exists c x, cell_of g c /\ cell_index_at (subdivisions g) c = Z.of_nat i /\ corner_of g c x /\ (iso x < 0)%R)
      (cell_index_in_sparse_grid (sparse_grid comp)) (cell_index_in_grid (sparse_grid comp)).
Proof.
  intros g iso n s Hg HD H3 NZ.
  destruct (C39_nonzero_corners_partial g iso Hg HD NZ) as (types & Et & Lt & Ht).
  set (cl := fun _ : nat => classify_iso (length g) iso). set (cells := subdivide_intersected_cells g cl n).
  pose proof (C35_subdivision_is_valid g cl n Hg HD) as Hv. fold cells in Hv.
  destruct (finish_grid_ok g cl n 0 (Surface types (triangles_of_cell s)) Hg HD) as (st & comp & Er & Ef & S1 & S2 & S3 & _ & S5).
  fold cells in Er, S2, S3, S5.
  assert (Init : forall p, a_leaf cells p -> initial_type cells p = fst (classify_iso (length g) iso (element g p)))
    by (intros p Lp; apply (leaf_initial g cl n p Hg HD Lp)).
  assert (NU : forall p, a_leaf cells p -> initial_type cells p <> Undefined).
  { intros p Lp. rewrite Init by exact Lp. apply (C39_subdivision (length g) iso (element g p) HD). }
  assert (Fin : forall p, a_leaf cells p -> leaf_type comp p = fst (classify_iso (length g) iso (element g p))).
  { intros p Lp. rewrite S3, (tag_nothing _ g cells _ st Hv Er NU p Lp). apply Init, Lp. }
  exists comp. split; [|split; [|split]].
  - unfold create_grid_from_iso_surface. rewrite Et.
    destruct (Nat.eqb_spec (length g) 3) as [E3|_]; cbn [andb]; [|exact Ef].
    destruct (Nat.ltb_spec (length (triangles_of_cell s)) (Z.to_nat (number_of_cells (subdivisions g)))) as [C|_]; [specialize (H3 E3); lia|exact Ef].
  - intros c ty Hc. rewrite S1. apply Ht, Hc.
  - rewrite S2. intros p Lp. rewrite (Fin p Lp). destruct (C39_subdivision (length g) iso (element g p) HD) as (A1 & A2 & _ & A4). auto.
  - rewrite S5. destruct (sparse_spec g (use_cell cells (leaf_type comp) 0) Hg HD) as (N & _). eapply numbering_ext; [|exact N].
    intros i Hi. cbn beta. pose proof (use_cell_kept g cl n (leaf_type comp) 0 i Hg HD) as UK. cbv zeta in UK. fold cells in UK. rewrite UK. clear UK.
    destruct Hv as (_ & _ & Lc & Hf).
    pose proof (C38_default_threshold g cl n (leaf_type comp) i Hg HD) as DT. cbv zeta in DT. fold cells in DT. rewrite DT by lia. clear DT.
    destruct (cell_index_back g i Hg Hi) as (c & Hc & Ec).
    pose proof (flat_inverse g Hg) as FI. destruct FI as [FI _]. destruct (FI c Hc) as [_ Inv].
    assert (El : element g (i, []) = cell_box g c) by (unfold element; cbn [fst snd sub_box]; rewrite <- Ec, Inv; reflexivity).
    assert (Nodes : forall x, In x (map (box_world (cell_box g c)) (corners (length g))) <-> corner_of g c x).
    { intros x. rewrite (element_nodes g c Hg HD Hc). rewrite cell_nodes_correct; [apply nodes_are_corners; assumption|exact Hg|]. apply (FI c Hc). }
    assert (Neg : ~ (forall x, corner_of g c x -> (0 < iso x)%R) <-> exists x, corner_of g c x /\ (iso x < 0)%R).
    { split.
      - intros H. destruct (not_all_positive (map (box_world (cell_box g c)) (corners (length g))) iso) as (x & I & Hx).
        + intros C. apply H. intros x Cx. apply C, Nodes, Cx.
        + exists x. apply Nodes in I. split; [exact I|]. pose proof (NZ c x Hc I). lra.
      - intros (x & Cx & Hx) H. specialize (H x Cx). lra. }
    assert (Lk : a_leaf cells (i, []) /\ leaf_type comp (i, []) = Outside <-> forall x, corner_of g c x -> (0 < iso x)%R).
    { destruct (C39_subdivision (length g) iso (cell_box g c) HD) as (_ & A2 & A3 & _). split.
      - intros [Lp O] x Cx. rewrite (Fin _ Lp), El in O. apply (proj1 A2 O). apply Nodes, Cx.
      - intros H. assert (O : fst (classify_iso (length g) iso (cell_box g c)) = Outside) by (apply A2; intros x I; apply H, Nodes, I).
        assert (Lp : a_leaf cells (i, [])).
        { exists (Outside, 1%R), (Leaf (Outside, 1%R)). split; [|reflexivity]. cbn [fst]. unfold cells, subdivide_intersected_cells.
          rewrite nth_error_map, (nth_error_nth' _ 0) by (rewrite seq_length; exact Hi). rewrite seq_nth by exact Hi. cbn [option_map]. f_equal.
          rewrite Nat.add_0_l, <- Ec, Inv. unfold cl.
          assert (B : snd (classify_iso (length g) iso (cell_box g c)) = false).
          { apply not_true_is_false. intros B. apply A3 in B. congruence. }
          destruct n; cbn [subdivide]; destruct (classify_iso (length g) iso (cell_box g c)) as [ty b]; cbn [fst snd] in O, B; subst; reflexivity. }
        split; [exact Lp|]. rewrite (Fin _ Lp), El. exact O. }
    rewrite Lk, Neg. split.
    + intros (x & Cx & Hx). exists c, x. auto.
    + intros (c' & x & Hc' & Ec' & Cx & Hx). assert (c' = c).
      { apply (inverse_injective _ _ _ _ _ _ (flat_inverse g Hg)); try assumption. congruence. }
      subst c'. exists x. auto.
Qed.
Print Assumptions C73_implicit_surface_partial.

(** In three dimensions, a component that never handled a tessellated surface takes a reference beyond the end of an empty array. *)
Theorem C73_implicit_surface_3D_refuted : forall g iso n threshold s, valid_grid g -> length g = 3 -> triangles_of_cell s = [] ->
  create_grid_from_iso_surface g iso n threshold s = Some UndefinedBehaviour.
Proof.
  intros g iso n threshold s Hg H3 Hs. unfold create_grid_from_iso_surface.
  assert (P : 0 < Z.to_nat (number_of_cells (subdivisions g))).
  { unfold number_of_cells. destruct Hg as [_ F]. assert (0 < fold_right Z.mul 1 (subdivisions g))%Z; [|lia].
    clear -F. induction F as [|a g [Hn _] F IH]; simpl; [lia|]. apply Z.mul_pos_pos; assumption. }
  destruct (tag_cells_spec g iso Hg) as [[_ ->]|[_ ->]]; [reflexivity|]. rewrite H3, Hs. cbn [length Nat.eqb andb].
  destruct (Nat.ltb_spec 0 (Z.to_nat (number_of_cells (subdivisions g)))); [reflexivity|lia].
Qed.
Print Assumptions C73_implicit_surface_3D_refuted.
Example C73_3D_example : valid_grid example_grid3 /\ length example_grid3 = 3.
Proof. split; [|reflexivity]. split; [simpl; lia|]. repeat constructor; simpl; try lia; lra. Qed.

(** ** With a tessellated surface *)

Lemma resize_all : forall (A : Type) n (a : A) l, length l = n -> resize n a l = l.
Proof. intros A n a l <-. unfold resize. rewrite firstn_all, Nat.sub_diag. apply app_nil_r. Qed.
Lemma resize_length : forall (A : Type) n (a : A) l, length (resize n a l) = n.
Proof. intros A n a l. unfold resize. rewrite app_length, firstn_length, repeat_length. lia. Qed.
Lemma nth_resize_nil : forall (A : Type) n (a : A) k, k < n -> nth_error (resize n a []) k = Some a.
Proof. intros A n a k H. unfold resize. rewrite firstn_nil. cbn [app length]. rewrite Nat.sub_0_r. apply nth_error_repeat. exact H. Qed.

(** What tagging does to a component in any state. *)
Lemma tag_spec : forall g pos intersects triangles s, valid_grid g -> surface_in_grid g pos triangles ->
  let n := Z.to_nat (number_of_cells (subdivisions g)) in
  let s0 := Surface (resize n Undefined (cells_types s)) (resize n [] (triangles_of_cell s)) in
  let s' := tag_intersected_cells g pos intersects triangles s in
  length (cells_types s') = n /\ length (triangles_of_cell s') = n /\
  (forall c, c < n -> (exists i, meets g pos triangles intersects i c) -> nth_error (cells_types s') c = Some Boundary) /\
  (forall c, c < n -> ~ (exists i, meets g pos triangles intersects i c) -> nth_error (cells_types s') c = nth_error (cells_types s0) c) /\
  (forall c i, c < n -> In i (nth c (triangles_of_cell s') []) <-> In i (nth c (triangles_of_cell s0) []) \/ meets g pos triangles intersects i c).
Proof.
  intros g pos intersects triangles s Hg [Hp Ht] n s0 s'.
  destruct (tag_triangles_spec g pos intersects Hg Hp triangles 0 s0 Ht (resize_length _ _ _ _) (resize_length _ _ _ _)) as (A1 & A2 & A3 & A4 & A5).
  assert (M : forall i c, (exists k t, i = 0 + k /\ nth_error triangles k = Some t /\ touches g pos intersects i t c) <-> meets g pos triangles intersects i c).
  { intros i c. unfold meets, touches, around. split.
    - intros (k & t & -> & Et & T). exists t. auto.
    - intros (t & Et & T). exists i, t. auto. }
  split; [exact A1|]. split; [exact A2|]. split; [|split].
  - intros c Hc (i & Hi). apply A3; [exact Hc|]. exists i. apply M. exact Hi.
  - intros c Hc N. apply A4; [exact Hc|]. intros (i & Hi). apply N. exists i. apply M. exact Hi.
  - intros c i Hc. rewrite <- M. apply A5. exact Hc.
Qed.

Definition new_component : surface_state := Surface [] [].

(** Creation on a component in any state whose recorded triangles exist. *)
Lemma create_general : forall g pos triangles intersects exactly n threshold s recorded, valid_grid g -> length g = 3 ->
  surface_in_grid g pos triangles ->
  let s' := tag_intersected_cells g pos intersects triangles s in
  let N := Z.to_nat (number_of_cells (subdivisions g)) in
  (forall c i, c < N -> In i (nth c (triangles_of_cell s') []) <-> recorded i c) ->
  (forall c i, c < N -> recorded i c -> i < length triangles) ->
  let wall := fun p => exists i, recorded i (fst p) /\ exactly (element g p) i = true in
  exists comp, create_grid_from_triangles g pos triangles intersects exactly n threshold s = Some (Ok comp) /\
    surface comp = s' /\ valid_cells g (forest comp) /\
    (forall p, a_leaf (forest comp) p ->
       (leaf_type comp p = Boundary <-> wall p) /\
       (leaf_type comp p = Outside <-> ~ wall p /\ exists q, reachable g (forest comp) wall p q /\ at_border g q) /\
       (leaf_type comp p = Inside <-> ~ wall p /\ ~ exists q, reachable g (forest comp) wall p q /\ at_border g q)) /\
    numbering (length (forest comp)) (kept_cell g (forest comp) (leaf_type comp) threshold)
      (cell_index_in_sparse_grid (sparse_grid comp)) (cell_index_in_grid (sparse_grid comp)).
Proof.
  intros g pos triangles intersects exactly n threshold s recorded Hg H3 HS s' N T Val wall.
  assert (HD : length g = 2 \/ length g = 3) by auto.
  set (cl := fun c => classify_triangles exactly (nth c (triangles_of_cell s') [])).
  set (cells := subdivide_intersected_cells g cl n).
  pose proof (C35_subdivision_is_valid g cl n Hg HD) as Hv. fold cells in Hv.
  assert (LN : length cells = N) by (destruct Hv as (_ & _ & L & _); unfold N; lia).
  destruct (finish_grid_ok g cl n threshold s' Hg HD) as (st & comp & Er & Ef & S1 & S2 & S3 & _ & S5). fold cells in Er, S2, S3, S5.
  assert (Top : forall p, a_leaf cells p -> fst p < N).
  { intros p (a & t & Et & _). rewrite <- LN. apply nth_error_Some. congruence. }
  assert (Init : forall p, a_leaf cells p -> (initial_type cells p = Boundary /\ wall p) \/ (initial_type cells p = Undefined /\ ~ wall p)).
  { intros p Lp. unfold cells at 1 2. rewrite (leaf_initial g cl n p Hg HD Lp). unfold cl, classify_triangles.
    assert (W : existsb (exactly (element g p)) (nth (fst p) (triangles_of_cell s') []) = true <-> wall p).
    { rewrite existsb_exists. unfold wall. split.
      - intros (i & I & E). exists i. split; [apply T; [apply Top, Lp|exact I]|exact E].
      - intros (i & I & E). exists i. split; [apply T; [apply Top, Lp|exact I]|exact E]. }
    destruct (existsb _ _); cbn [fst]; [left; split; [reflexivity|apply W; reflexivity]|right; split; [reflexivity|]].
    intros C. apply W in C. discriminate. }
  assert (Reach : forall p q, a_leaf cells p -> ~ wall p -> same_region g cells (initial_type cells) p q <-> reachable g cells wall p q).
  { intros p q Lp Wp. unfold same_region, reachable. split.
    - intros R. apply clos_rt_rt1n in R. apply clos_rt1n_rt. induction R as [p|p q r [Npq Tpq] R IH]; [apply rt1n_refl|].
      destruct Npq as (L1 & L2 & F). assert (Wq : ~ wall q).
      { intros C. destruct (Init p Lp) as [[_ C']|[Ep _]]; [contradiction|]. destruct (Init q L2) as [[Eq _]|[_ C']]; [congruence|contradiction]. }
      eapply Relation_Operators.rt1n_trans; [|apply IH; assumption]. split; [repeat split; assumption|auto].
    - intros R. apply clos_rt_rt1n in R. apply clos_rt1n_rt. induction R as [p|p q r (Npq & W1 & W2) R IH]; [apply rt1n_refl|].
      pose proof Npq as (L1 & L2 & F). eapply Relation_Operators.rt1n_trans; [|apply IH; assumption]. split; [exact Npq|].
      destruct (Init p L1) as [[_ C]|[-> _]]; [contradiction|]. destruct (Init q L2) as [[_ C]|[-> _]]; [contradiction|reflexivity]. }
  destruct (C37_outside_iff_border_partial _ g cells (initial_type cells) st Hv H3 Er) as (B1 & _ & _).
  exists comp. rewrite S2. split; [|split; [exact S1|split; [exact Hv|split]]].
  - unfold create_grid_from_triangles. fold s'. fold cl. rewrite existsb_false; [exact Ef|].
    intros c Ic. apply in_seq in Ic. apply subdivision_no_bad_reads. intros e. apply no_bad_reads. intros i I.
    assert (Hi : i < length triangles) by (apply T in I; [|unfold N; lia]; apply (Val c i); [unfold N; lia|exact I]).
    destruct (nth_error triangles i) as [t|] eqn:Et; [|apply nth_error_None in Et; lia]. destruct HS as [_ HT]. rewrite Forall_forall in HT.
    destruct (HT t (nth_error_In _ _ Et)) as [_ F]. apply forallb_forall. intros k Ik. rewrite Forall_forall in F. apply Nat.ltb_lt, F, Ik.
  - intros p Lp. destruct (B1 p Lp) as (C1 & C2). rewrite <- S3 in C1, C2.
    destruct (Init p Lp) as [[Ep Wp]|[Ep Wp]].
    + assert (E : leaf_type comp p = Boundary) by (rewrite C1; [exact Ep|congruence]). rewrite E.
      split; [tauto|]. split; split; intros H; try discriminate; tauto.
    + assert (X : (exists q, same_region g cells (initial_type cells) p q /\ at_border g q) <-> (exists q, reachable g cells wall p q /\ at_border g q)).
      { split; intros (q & H1 & H2); exists q; (split; [apply Reach; assumption|exact H2]). }
      rewrite X in C2. destruct (C2 Ep) as [[-> Y]|[-> Y]];
        (split; [split; [discriminate|contradiction]|]); split; split; intros H; try discriminate; tauto.
  - rewrite S5, LN. destruct (sparse_spec g (use_cell cells (leaf_type comp) threshold) Hg HD) as (NB & _). eapply numbering_ext; [|exact NB].
    intros c _. apply (use_cell_kept g cl n (leaf_type comp) threshold c Hg HD).
Qed.

Lemma meets_range : forall g pos triangles intersects i c, meets g pos triangles intersects i c -> i < length triangles.
Proof. intros g pos triangles intersects i c (t & Et & _). apply nth_error_Some. congruence. Qed.

(** A new component: the grid is created; the triangles recorded for a cell are those that meet it; a leaf is Boundary exactly when
    one of these triangles goes through it; the other leaves are Outside when the border of the grid can be reached from them
    without crossing the surface, Inside otherwise; the elements are the kept cells. *)
Theorem C73_tessellated_surface : forall g pos triangles intersects exactly n threshold, valid_grid g -> length g = 3 ->
  surface_in_grid g pos triangles ->
  let wall := hit g pos triangles intersects exactly in
  exists comp, create_grid_from_triangles g pos triangles intersects exactly n threshold new_component = Some (Ok comp) /\
    valid_cells g (forest comp) /\
    (forall c, c < length (forest comp) ->
       nth_error (cells_types (surface comp)) c = Some Boundary /\ (exists i, meets g pos triangles intersects i c) \/
       nth_error (cells_types (surface comp)) c = Some Undefined /\ ~ (exists i, meets g pos triangles intersects i c)) /\
    (forall c i, c < length (forest comp) -> In i (nth c (triangles_of_cell (surface comp)) []) <-> meets g pos triangles intersects i c) /\
    (forall p, a_leaf (forest comp) p ->
       (leaf_type comp p = Boundary <-> wall p) /\
       (leaf_type comp p = Outside <-> ~ wall p /\ exists q, reachable g (forest comp) wall p q /\ at_border g q) /\
       (leaf_type comp p = Inside <-> ~ wall p /\ ~ exists q, reachable g (forest comp) wall p q /\ at_border g q)) /\
    numbering (length (forest comp)) (kept_cell g (forest comp) (leaf_type comp) threshold)
      (cell_index_in_sparse_grid (sparse_grid comp)) (cell_index_in_grid (sparse_grid comp)).
Proof.
  intros g pos triangles intersects exactly n threshold Hg H3 HS wall.
  destruct (tag_spec g pos intersects triangles new_component Hg HS) as (A1 & A2 & A3 & A4 & A5).
  set (N := Z.to_nat (number_of_cells (subdivisions g))) in *.
  assert (T : forall c i, c < N -> In i (nth c (triangles_of_cell (tag_intersected_cells g pos intersects triangles new_component)) []) <->
    meets g pos triangles intersects i c).
  { intros c i Hc. rewrite A5 by exact Hc. cbn [triangles_of_cell new_component].
    rewrite (nth_error_nth (resize N [] []) c [] (nth_resize_nil _ _ _ _ Hc)). simpl. tauto. }
  destruct (create_general g pos triangles intersects exactly n threshold new_component (meets g pos triangles intersects) Hg H3 HS T) as (comp & E & S & Hv & L & K).
  { intros c i _. apply meets_range. }
  assert (LN : length (forest comp) = N) by (destruct Hv as (_ & _ & L' & _); unfold N; lia).
  exists comp. split; [exact E|]. split; [exact Hv|]. rewrite S. split; [|split; [|split; [exact L|exact K]]].
  - intros c Hc. rewrite LN in Hc.
    assert (D : (exists i, meets g pos triangles intersects i c) \/ ~ (exists i, meets g pos triangles intersects i c)).
    { destruct (nth c (triangles_of_cell (tag_intersected_cells g pos intersects triangles new_component)) []) as [|i l] eqn:El.
      - right. intros (i & Hi). apply T in Hi; [|exact Hc]. rewrite El in Hi. destruct Hi.
      - left. exists i. apply T; [exact Hc|]. rewrite El. left. reflexivity. }
    destruct D as [D|D]; [left; split; [apply A3; assumption|exact D]|right; split; [|exact D]].
    rewrite A4 by assumption. apply nth_resize_nil. exact Hc.
  - intros c i Hc. rewrite LN in Hc. apply T. exact Hc.
Qed.
Print Assumptions C73_tessellated_surface.
Definition one_cell : grid := [Axis 0 1 1; Axis 0 1 1; Axis 0 1 1].
Definition one_triangle : list (list R) := [[0; 0; 0]; [1; 0; 0]; [0; 1; 1]]%R.
Lemma one_cell_valid : valid_grid one_cell.
Proof. split; [simpl; lia|]. repeat constructor; simpl; try lia; lra. Qed.
Lemma in_one_cell : forall x y z, (0 <= x <= 1)%R -> (0 <= y <= 1)%R -> (0 <= z <= 1)%R -> in_grid one_cell [x; y; z].
Proof.
  intros x y z Hx Hy Hz. apply Forall2_cons; [|apply Forall2_cons; [|apply Forall2_cons; [|apply Forall2_nil]]];
    change (0 <= x <= 0 + 1)%R || change (0 <= y <= 0 + 1)%R || change (0 <= z <= 0 + 1)%R; lra.
Qed.
Lemma one_triangle_in : surface_in_grid one_cell one_triangle [[0; 1; 2]].
Proof.
  split; [|repeat constructor]. apply Forall_cons; [|apply Forall_cons; [|apply Forall_cons; [|apply Forall_nil]]]; apply in_one_cell; lra.
Qed.
Lemma one_triangle_meets : meets one_cell one_triangle [[0; 1; 2]] (fun _ _ => true) 0 0.
Proof.
  exists [0; 1; 2]. split; [reflexivity|]. split; [|right; reflexivity].
  apply (enclosing_covers one_cell _ [0; 0; 0]%Z [0; 0; 0]%R one_cell_valid).
  - discriminate.
  - apply Forall_cons; [|apply Forall_cons; [|apply Forall_cons; [|apply Forall_nil]]]; apply in_one_cell; lra.
  - repeat constructor; simpl; lia.
  - repeat constructor; unfold plane; simpl; lra.
  - intros k x E. destruct k as [|[|[|[|k]]]]; try discriminate; inversion E; subst;
      (split; exists [0; 0; 0]%R, 0%R; (split; [left; reflexivity|]); (split; [reflexivity|lra])).
Qed.
Example C73_tessellated_example : valid_grid one_cell /\ surface_in_grid one_cell one_triangle [[0; 1; 2]] /\
  hit one_cell one_triangle [[0; 1; 2]] (fun _ _ => true) (fun _ _ => true) (0, []).
Proof.
  split; [exact one_cell_valid|]. split; [exact one_triangle_in|]. exists 0. split; [exact one_triangle_meets|reflexivity].
Qed.

(** ** Creating the grid again *)

(** Creating again on a component that recorded triangles before: as long as the numbers it remembers still are triangles, and the
    exact test never finds a triangle in a leaf of a cell that the triangle does not meet, the leaves and the elements are those of a
    new component. *)
Theorem C73_created_again_partial : forall g pos triangles intersects exactly n threshold s, valid_grid g -> length g = 3 ->
  surface_in_grid g pos triangles ->
  Forall (Forall (fun i => i < length triangles)) (triangles_of_cell s) ->
  (forall p i, i < length triangles -> fst p < Z.to_nat (number_of_cells (subdivisions g)) -> exactly (element g p) i = true ->
     meets g pos triangles intersects i (fst p)) ->
  let wall := hit g pos triangles intersects exactly in
  exists comp, create_grid_from_triangles g pos triangles intersects exactly n threshold s = Some (Ok comp) /\
    (forall p, a_leaf (forest comp) p ->
       (leaf_type comp p = Boundary <-> wall p) /\
       (leaf_type comp p = Outside <-> ~ wall p /\ exists q, reachable g (forest comp) wall p q /\ at_border g q) /\
       (leaf_type comp p = Inside <-> ~ wall p /\ ~ exists q, reachable g (forest comp) wall p q /\ at_border g q)) /\
    numbering (length (forest comp)) (kept_cell g (forest comp) (leaf_type comp) threshold)
      (cell_index_in_sparse_grid (sparse_grid comp)) (cell_index_in_grid (sparse_grid comp)).
Proof.
  intros g pos triangles intersects exactly n threshold s Hg H3 HS Old Cons wall.
  destruct (tag_spec g pos intersects triangles s Hg HS) as (A1 & A2 & A3 & A4 & A5).
  set (N := Z.to_nat (number_of_cells (subdivisions g))) in *.
  set (old := fun c => nth c (resize N [] (triangles_of_cell s)) []).
  assert (OldV : forall c i, c < N -> In i (old c) -> i < length triangles).
  { intros c i Hc I. unfold old, resize in I. destruct (Nat.lt_ge_cases c (length (firstn N (triangles_of_cell s)))) as [L|L].
    - rewrite app_nth1 in I by exact L. assert (J : In (nth c (firstn N (triangles_of_cell s)) []) (triangles_of_cell s)).
      { pose proof (nth_In (firstn N (triangles_of_cell s)) [] L) as J. revert J. generalize (nth c (firstn N (triangles_of_cell s)) []). intros x J.
        rewrite <- (firstn_skipn N (triangles_of_cell s)). apply in_or_app. left. exact J. }
      rewrite Forall_forall in Old. specialize (Old _ J). rewrite Forall_forall in Old. apply Old, I.
    - rewrite app_nth2 in I by exact L. rewrite nth_repeat in I. destruct I. }
  destruct (create_general g pos triangles intersects exactly n threshold s (fun i c => In i (old c) \/ meets g pos triangles intersects i c) Hg H3 HS) as (comp & E & S & Hv & L & K).
  { intros c i Hc. apply A5. exact Hc. }
  { intros c i Hc [I|M]; [apply (OldV c i Hc I)|eapply meets_range; exact M]. }
  assert (LN : length (forest comp) = N) by (destruct Hv as (_ & _ & L' & _); unfold N; lia).
  assert (W : forall p, fst p < N -> (exists i, (In i (old (fst p)) \/ meets g pos triangles intersects i (fst p)) /\ exactly (element g p) i = true) <-> wall p).
  { intros p Hp. unfold wall, hit. split.
    - intros (i & [I|M] & X); exists i; [|auto]. split; [|exact X]. apply Cons; [eapply OldV; eassumption|exact Hp|exact X].
    - intros (i & M & X). exists i. auto. }
  assert (Top : forall p, a_leaf (forest comp) p -> fst p < N).
  { intros p (a & t & Et & _). rewrite <- LN. apply nth_error_Some. congruence. }
  assert (R : forall p q, reachable g (forest comp) (fun p => exists i, (In i (old (fst p)) \/ meets g pos triangles intersects i (fst p)) /\ exactly (element g p) i = true) p q <->
     reachable g (forest comp) wall p q).
  { intros p q. unfold reachable. split; intros R; induction R as [p q (Npq & W1 & W2)|p|p q r _ I1 _ I2];
      try apply rt_refl; try (eapply rt_trans; eassumption); apply rt_step; pose proof Npq as (L1 & L2 & _); (split; [exact Npq|]);
      rewrite (W p (Top p L1)) in *; rewrite (W q (Top q L2)) in *; auto. }
  exists comp. split; [exact E|]. split; [|exact K]. intros p Lp. destruct (L p Lp) as (L1 & L2 & L3).
  assert (X : (exists q, reachable g (forest comp) (fun p => exists i, (In i (old (fst p)) \/ meets g pos triangles intersects i (fst p)) /\ exactly (element g p) i = true) p q /\ at_border g q) <->
    (exists q, reachable g (forest comp) wall p q /\ at_border g q)).
  { split; intros (q & H1 & H2); exists q; (split; [apply R; exact H1|exact H2]). }
  rewrite X in L2, L3. rewrite (W p (Top p Lp)) in L1, L2, L3. auto.
Qed.
Print Assumptions C73_created_again_partial.
Example C73_created_again_example : let s := Surface [Boundary] [[0]] in
  Forall (Forall (fun i => i < length [[0; 1; 2]])) (triangles_of_cell s) /\
  (forall (p : ptr) i, i < length [[0; 1; 2]] -> fst p < Z.to_nat (number_of_cells (subdivisions one_cell)) -> true = true ->
     meets one_cell one_triangle [[0; 1; 2]] (fun _ _ => true) i (fst p)).
Proof.
  intros s. split; [repeat constructor|]. intros [c p] i Hi Hc _. cbn in Hi, Hc. cbn [fst].
  assert (i = 0) as -> by lia. assert (c = 0) as -> by lia. exact one_triangle_meets.
Qed.

(** What the point query uses is not reset: a cell once tagged Boundary stays Boundary, whatever the new surface. *)
Theorem C73_stale_types_refuted : forall g pos triangles intersects s c, valid_grid g -> surface_in_grid g pos triangles ->
  c < Z.to_nat (number_of_cells (subdivisions g)) -> nth_error (cells_types s) c = Some Boundary ->
  nth_error (cells_types (tag_intersected_cells g pos intersects triangles s)) c = Some Boundary.
Proof.
  intros g pos triangles intersects s c Hg HS Hc E.
  destruct (tag_spec g pos intersects triangles s Hg HS) as (A1 & A2 & A3 & A4 & A5).
  set (N := Z.to_nat (number_of_cells (subdivisions g))) in *.
  assert (D : nth_error (cells_types (Surface (resize N Undefined (cells_types s)) (resize N [] (triangles_of_cell s)))) c = Some Boundary).
  { cbn [cells_types]. unfold resize. rewrite nth_error_app1.
    - rewrite <- E. clear -Hc. revert c Hc. generalize (cells_types s). induction N as [|m IH]; intros l c Hc; [lia|].
      destruct l as [|x l]; [destruct c; reflexivity|]. destruct c as [|c]; [reflexivity|]. simpl. apply IH. lia.
    - rewrite firstn_length. assert (c < length (cells_types s)) by (apply nth_error_Some; congruence). lia. }
  assert (M : (exists i, meets g pos triangles intersects i c) \/ ~ (exists i, meets g pos triangles intersects i c)).
  { assert (H : forall m, (exists i, i < m /\ meets g pos triangles intersects i c) \/ ~ (exists i, i < m /\ meets g pos triangles intersects i c)).
    { induction m as [|m IH]; [right; intros (i & Hi & _); lia|]. destruct IH as [(i & Hi & H)|Nm]; [left; exists i; split; [lia|exact H]|].
      assert (Dm : meets g pos triangles intersects m c \/ ~ meets g pos triangles intersects m c).
      { unfold meets. destruct (nth_error triangles m) as [t|]; [|right; intros (t & Et & _); discriminate].
        destruct (touches_dec g pos intersects m t c) as [T|T]; [left; exists t; auto|]. right. intros (t' & Et & T'). inversion Et; subst. exact (T T'). }
      destruct Dm as [Dm|Dm]; [left; exists m; auto|]. right. intros (i & Hi & H). destruct (Nat.eq_dec i m) as [->|]; [contradiction|].
      apply Nm. exists i. split; [lia|exact H]. }
    destruct (H (length triangles)) as [(i & _ & Hi)|Nh]; [left; exists i; exact Hi|]. right. intros (i & Hi). apply Nh. exists i. split; [|exact Hi].
    eapply meets_range. exact Hi. }
  destruct M as [M|M]; [apply A3; assumption|]. rewrite A4 by assumption. exact D.
Qed.
Print Assumptions C73_stale_types_refuted.
Example C73_stale_types_example : 0 < Z.to_nat (number_of_cells (subdivisions one_cell)) /\
  nth_error (cells_types (Surface [Boundary] [[0]])) 0 = Some Boundary /\ surface_in_grid one_cell one_triangle [] /\
  (forall i, ~ meets one_cell one_triangle [] (fun _ _ => true) i 0).
Proof.
  split; [cbn; lia|]. split; [reflexivity|]. split; [split; [exact (proj1 one_triangle_in)|constructor]|].
  intros i (t & E & _). destruct i; discriminate.
Qed.

(** A remembered number that is no longer a triangle is read out of the array, unless an earlier one goes through the cell. *)
Theorem C73_stale_triangle_refuted : forall g pos triangles intersects exactly n threshold s c i rest, valid_grid g ->
  c < Z.to_nat (number_of_cells (subdivisions g)) ->
  nth_error (triangles_of_cell s) c = Some (i :: rest) -> length triangles <= i ->
  Z.to_nat (number_of_cells (subdivisions g)) <= length (triangles_of_cell s) -> surface_in_grid g pos triangles ->
  create_grid_from_triangles g pos triangles intersects exactly n threshold s = Some UndefinedBehaviour.
Proof.
  intros g pos triangles intersects exactly n threshold s c i rest Hg Hc Ec Hi Hl [Hp Ht].
  unfold create_grid_from_triangles.
  assert (H : exists l, nth c (triangles_of_cell (tag_intersected_cells g pos intersects triangles s)) [] = i :: l).
  { unfold tag_intersected_cells. set (N := Z.to_nat (number_of_cells (subdivisions g))) in *.
    assert (G : forall r k u, length (cells_types u) = N -> length (triangles_of_cell u) = N ->
      Forall (fun t => length t = 3 /\ Forall (fun k => k < length pos) t) r ->
      (exists l, nth c (triangles_of_cell u) [] = i :: l) -> exists l, nth c (triangles_of_cell (tag_triangles g pos intersects k r u)) [] = i :: l).
    { assert (Mk : forall u k z, (exists l, nth c (triangles_of_cell u) [] = i :: l) -> exists l, nth c (triangles_of_cell (mark u k z)) [] = i :: l).
      { intros u k z (l & El). unfold mark. cbn [triangles_of_cell].
        assert (Hn : nth_error (triangles_of_cell u) c = Some (i :: l)).
        { destruct (nth_error (triangles_of_cell u) c) as [x|] eqn:En; [rewrite (nth_error_nth _ _ _ En) in El; congruence|].
          apply nth_error_None in En. rewrite nth_overflow in El by exact En. discriminate. }
        assert (Hu : exists l', nth_error (update_nth (Z.to_nat z) (fun l => l ++ [k]) (triangles_of_cell u)) c = Some (i :: l')).
        { rewrite nth_error_update_nth, Hn. cbn [option_map]. destruct (c =? Z.to_nat z); [exists (l ++ [k])|exists l]; reflexivity. }
        destruct Hu as (l' & Hu). exists l'. apply nth_error_nth. exact Hu. }
      induction r as [|t r IHr]; intros k u U1 U2 F X; [exact X|]. inversion F as [|? ? [B1 B2] B3]; subst.
      cbn [tag_triangles]. destruct (existsb _ t); [exact X|]. destruct (existsb _ (map _ t)); [apply IHr; assumption|].
      destruct (cells_enclosing g (map (fun k => nth k pos []) t)) as [|z [|y l]] eqn:Ee; [exact X| |].
      - apply IHr; try assumption; [unfold mark; cbn [cells_types]; rewrite update_nth_length; assumption|unfold mark; cbn [triangles_of_cell]; rewrite update_nth_length; assumption|apply Mk, X].
      - assert (Fm : forall zs v, length (cells_types v) = N -> length (triangles_of_cell v) = N -> (exists l, nth c (triangles_of_cell v) [] = i :: l) ->
          let w := fold_left (fun s c0 => if intersects c0 k then mark s k c0 else s) zs v in
          length (cells_types w) = N /\ length (triangles_of_cell w) = N /\ exists l, nth c (triangles_of_cell w) [] = i :: l).
        { induction zs as [|x zs IHz]; intros v V1 V2 V3; [auto|]. cbn [fold_left]. destruct (intersects x k); [|apply IHz; assumption].
          apply IHz; [unfold mark; cbn [cells_types]; rewrite update_nth_length; assumption|unfold mark; cbn [triangles_of_cell]; rewrite update_nth_length; assumption|apply Mk, V3]. }
        destruct (Fm (z :: y :: l) u U1 U2 X) as (F1 & F2 & F3). apply IHr; assumption. }
    apply G; try assumption; try apply resize_length. exists rest. unfold resize. cbn [triangles_of_cell].
    rewrite app_nth1 by (rewrite firstn_length; lia). apply nth_error_nth. rewrite <- Ec. clear -Hc. revert c Hc. generalize (triangles_of_cell s).
    induction N as [|m IH]; intros l c Hc; [lia|]. destruct l as [|x l]; [destruct c; reflexivity|]. destruct c as [|c]; [reflexivity|]. simpl. apply IH. lia. }
  destruct H as (l & El).
  match goal with |- (if existsb ?f ?r then _ else _) = _ => assert (X : existsb f r = true) end; [|rewrite X; reflexivity].
  apply existsb_exists. exists c. split; [apply in_seq; lia|]. rewrite El.
  assert (V : nth_error triangles i = None) by (apply nth_error_None; exact Hi).
  destruct n; cbn [subdivision_reads reads_out_of_range]; rewrite V; reflexivity.
Qed.
Print Assumptions C73_stale_triangle_refuted.
Example C73_stale_triangle_example : let s := Surface [Boundary] [[1]] in
  nth_error (triangles_of_cell s) 0 = Some [1] /\ length [[0; 1; 2]] <= 1 /\
  Z.to_nat (number_of_cells (subdivisions one_cell)) <= length (triangles_of_cell s) /\ surface_in_grid one_cell one_triangle [[0; 1; 2]].
Proof. intros s. split; [reflexivity|]. split; [cbn; lia|]. split; [cbn; lia|exact one_triangle_in]. Qed.

(** ** The point query after a tessellated surface (C40): never Inside, never Outside within the grid. *)
Theorem C40_tessellated_refuted : forall g pos triangles intersects p, valid_grid g -> surface_in_grid g pos triangles -> in_grid g p ->
  let types := cells_types (tag_intersected_cells g pos intersects triangles new_component) in
  get_type_at g types p <> Ok Inside /\ get_type_at g types p <> Ok Outside.
Proof.
  intros g pos triangles intersects p Hg HS Hp types.
  destruct (tag_spec g pos intersects triangles new_component Hg HS) as (A1 & _ & A3 & A4 & _). fold types in A1, A3, A4.
  set (N := Z.to_nat (number_of_cells (subdivisions g))) in *.
  assert (T : forall c t, nth_error types c = Some t -> t = Boundary \/ t = Undefined).
  { intros c t E. assert (Hc : c < N) by (rewrite <- A1; apply nth_error_Some; congruence).
    destruct t; auto; exfalso.
    - assert (M : ~ ~ exists i, meets g pos triangles intersects i c).
      { intros M. rewrite A4 in E by assumption. cbn [cells_types new_component] in E. rewrite nth_resize_nil in E by exact Hc. discriminate. }
      apply M. intros X. rewrite A3 in E by assumption. discriminate.
    - assert (M : ~ ~ exists i, meets g pos triangles intersects i c).
      { intros M. rewrite A4 in E by assumption. cbn [cells_types new_component] in E. rewrite nth_resize_nil in E by exact Hc. discriminate. }
      apply M. intros X. rewrite A3 in E by assumption. discriminate. }
  unfold get_type_at. rewrite (in_grid_contains g Hg p Hp).
  destruct (cells_around g p) as [|x [|y l]] eqn:EA.
  - cbn. split; discriminate.
  - destruct (nth_error types (Z.to_nat x)) as [t|] eqn:E; [|split; discriminate]. destruct (T _ _ E) as [-> | ->]; split; discriminate.
  - destruct (fold_left _ _ _) as [z|]; [|split; discriminate]. destruct (negb _); [split; discriminate|]. destruct (_ && _); split; discriminate.
Qed.
Print Assumptions C40_tessellated_refuted.
Example C40_tessellated_example : in_grid one_cell [/ 2; / 2; / 2]%R.
Proof. repeat constructor; simpl; lra. Qed.

(** ** Bounds *)

(** Without bounds the grid spans the smallest box around the surface nodes (coordinates within the floating point range). *)
Theorem C73_bounds : forall m lowest l, l <> [] -> (forall x, In x l -> lowest <= x <= m)%R ->
  let b := bounds m lowest l in
  (forall x, In x l -> fst b <= x <= snd b)%R /\ In (fst b) l /\ In (snd b) l.
Proof.
  intros m lowest l Hn Hr b.
  assert (G : forall l lo hi seen, (forall x, In x seen -> lo <= x <= hi)%R -> (forall x, In x l -> lowest <= x <= m)%R ->
    (In lo seen \/ lo = m /\ seen = []) -> (In hi seen \/ hi = lowest /\ seen = []) ->
    let b := fold_left (fun b x => (if Rlt_dec x (fst b) then x else fst b, if Rlt_dec (snd b) x then x else snd b)) l (lo, hi) in
    (forall x, In x (seen ++ l) -> fst b <= x <= snd b)%R /\
    (seen ++ l <> [] -> (In (fst b) (seen ++ l) \/ fst b = m) /\ (In (snd b) (seen ++ l) \/ snd b = lowest))).
  { induction l0 as [|x r IH]; intros lo hi seen B R L U.
    - rewrite app_nil_r. cbn [fold_left fst snd]. split; [exact B|]. intros _. tauto.
    - cbn [fold_left fst snd]. replace (seen ++ x :: r) with ((seen ++ [x]) ++ r) by (rewrite <- app_assoc; reflexivity).
      pose proof (R x (or_introl eq_refl)) as Rx.
      apply IH.
      + intros y Iy. apply in_app_iff in Iy. destruct Iy as [Iy|[<-|[]]].
        * specialize (B y Iy). destruct (Rlt_dec x lo), (Rlt_dec hi x); lra.
        * destruct (Rlt_dec x lo), (Rlt_dec hi x); lra.
      + intros y Iy. apply R. right. exact Iy.
      + left. destruct (Rlt_dec x lo) as [|N]; [apply in_or_app; right; left; reflexivity|].
        destruct L as [L|[-> ->]]; [apply in_or_app; left; exact L|]. left. lra.
      + left. destruct (Rlt_dec hi x) as [|N]; [apply in_or_app; right; left; reflexivity|].
        destruct U as [U|[-> ->]]; [apply in_or_app; left; exact U|]. left. lra. }
  destruct (G l m lowest [] ltac:(intros ? []) Hr (or_intror (conj eq_refl eq_refl)) (or_intror (conj eq_refl eq_refl))) as [G1 G2].
  cbn [app] in G1, G2. fold b in G1, G2. change (fold_left _ l (m, lowest)) with b in G1, G2. split; [exact G1|].
  destruct (G2 Hn) as [[I|E1] [J|E2]].
  - auto.
  - split; [exact I|]. destruct l as [|x l]; [congruence|]. pose proof (G1 x (or_introl eq_refl)). pose proof (Hr x (or_introl eq_refl)).
    assert (snd b = x) as -> by lra. left. reflexivity.
  - split; [|exact J]. destruct l as [|x l]; [congruence|]. pose proof (G1 x (or_introl eq_refl)). pose proof (Hr x (or_introl eq_refl)).
    assert (fst b = x) as -> by lra. left. reflexivity.
  - destruct l as [|x l]; [congruence|]. pose proof (G1 x (or_introl eq_refl)). pose proof (Hr x (or_introl eq_refl)).
    assert (fst b = x) as -> by lra. assert (snd b = x) as -> by lra. split; left; reflexivity.
Qed.
Print Assumptions C73_bounds.
Example C73_bounds_example : bounds 1000 (-1000) [3; -2; 5]%R = (-2, 5)%R.
Proof. unfold bounds. cbn [fold_left fst snd]. repeat (destruct (Rlt_dec _ _); try lra). reflexivity. Qed.

(** Two distinct corners, in any order, and at least two nodes give a valid axis between them. *)
Theorem C73_axis : forall first second n, first <> second -> (2 <= n)%Z ->
  let a := axis_between first second n in
  valid_axis a /\ plane a 0 = Rmin first second /\ plane a (n - 1) = Rmax first second.
Proof.
  intros first second n Ne Hn a. unfold a, axis_between, valid_axis, plane. cbn [ax_n ax_size ax_anchor].
  assert (0 < IZR (n - 1))%R by (apply IZR_lt; lia).
  split; [split; [lia|apply Rabs_pos_lt; lra]|]. split; [field; lra|].
  replace (IZR (n - 1) * Rabs (first - second) / IZR (n - 1))%R with (Rabs (first - second)) by (field; lra).
  unfold Rmin, Rmax, Rabs. destruct (Rle_dec first second), (Rcase_abs (first - second)); lra.
Qed.
Print Assumptions C73_axis.
