(** Properties of the fictitious grid: C33 (weights) and C34 (quadrature points). *)

From Coq Require Import ZArith Reals Lra Lia Permutation.
From Coq Require Import List Arith Bool.
From Verif Require Import GridModel GridSpec GridProofs GridGeoModel GridGeoSpec GridGeoProofs ShapeModel Sums FictModel FictSpec FictProofs FictProofs2
  FictProofs3 FictProofs4 FictProofs5 FictProofs6 FictProofs7 FictProperties.
Import ListNotations.
Open Scope R_scope.

(** ** C33 *)

Lemma cell_of_forest : forall g classify n c t, nth_error (subdivide_intersected_cells g classify n) c = Some t ->
  exists e, t = subdivide (length g) (classify c) n e 1.
Proof.
  intros g classify n c t E. unfold subdivide_intersected_cells in E. rewrite nth_error_map in E.
  destruct (nth_error (seq 0 _) c) as [c'|] eqn:Ec; [|discriminate].
  assert (c' = c).
  { assert (H : (c < length (seq 0 (Z.to_nat (number_of_cells (subdivisions g)))))%nat) by (apply nth_error_Some; congruence).
    rewrite (nth_error_nth' _ 0%nat H), seq_nth in Ec by (rewrite seq_length in H; exact H). inversion Ec. reflexivity. }
  subst c'. inversion E. eauto.
Qed.

Lemma leaves_permutation : forall (A : Type) (cells : list (tree A)) c t l, nth_error cells c = Some t -> leaves_of_cell cells c l ->
  Permutation l (map (pair c) (leaf_paths [] t)).
Proof.
  intros A cells c t l E [N H]. apply NoDup_Permutation; [exact N| |].
  - apply FinFun.Injective_map_NoDup; [|apply leaf_paths_NoDup]. intros x y Q. inversion Q. reflexivity.
  - intros [top p]. rewrite H, in_map_iff. cbn [fst]. split.
    + intros [(a & s & Es & Ea) ->]. cbn [fst snd] in *. rewrite E in Es. inversion Es; subst s. exists p. split; [reflexivity|].
      apply in_leaf_paths. exists p, a. rewrite app_nil_r. auto.
    + intros (q & Q & I). inversion Q; subst. split; [|reflexivity]. apply in_leaf_paths in I. destruct I as (w & a & -> & Ea). rewrite app_nil_r.
      exists a, t. auto.
Qed.

Lemma leaf_of_forest : forall g classify n p a, valid_grid g -> (length g = 2 \/ length g = 3)%nat ->
  leaf (subdivide_intersected_cells g classify n) p a ->
  snd a = 1 / 2 ^ (length g * length (snd p)) /\ (length (snd p) <= n)%nat /\ okp g p.
Proof.
  intros g classify n p a Hg HD L. destruct (C35_subdivision_is_valid g classify n Hg HD) as (_ & _ & Hc & Hf).
  split; [|split; [|eapply leaf_okp; eassumption]]; destruct L as (t & Et & Ea); destruct (cell_of_forest _ _ _ _ _ Et) as (e & ->);
    apply (subdivide_leaf _ _ HD) in Ea; destruct Ea as (_ & H1 & H2 & _); assumption.
Qed.

(** The weight of a leaf is the part of its cell's volume that it occupies. *)
Theorem C33_weight_is_volume_ratio : forall g classify n p ty w, valid_grid g -> (length g = 2 \/ length g = 3)%nat ->
  leaf (subdivide_intersected_cells g classify n) p (ty, w) ->
  volume (element g p) = w * cell_volume g /\ 0 < w <= 1 /\ (length (snd p) <= n)%nat.
Proof.
  intros g classify n p ty w Hg HD L. destruct (leaf_of_forest _ _ _ _ _ Hg HD L) as (H1 & H2 & H3). cbn [snd] in H1.
  assert (P : 1 <= 2 ^ (length g * length (snd p))) by (apply pow_R1_Rle; lra).
  split; [|split; [|exact H2]].
  - unfold volume. rewrite (element_volume g p Hg HD H3). unfold cell_volume. rewrite H1. lra.
  - rewrite H1. split; [apply Rdiv_lt_0_compat; lra|]. unfold Rdiv. rewrite Rmult_1_l, <- Rinv_1. apply Rinv_le_contravar; lra.
Qed.
Print Assumptions C33_weight_is_volume_ratio.

(** The weights of the leaves of each cell sum to one. *)
Theorem C33_weights_sum_to_one : forall g classify n c l, valid_grid g -> (length g = 2 \/ length g = 3)%nat ->
  let cells := subdivide_intersected_cells g classify n in
  (c < length cells)%nat -> leaves_of_cell cells c l -> total (map (leaf_weight cells) l) = 1.
Proof.
  intros g classify n c l Hg HD cells Hc Hl. destruct (nth_error cells c) as [t|] eqn:Et; [|apply nth_error_None in Et; lia].
  change total with Rsum. rewrite (Rsum_permutation _ _ (Permutation_map _ (leaves_permutation _ _ _ _ _ Et Hl))), map_map.
  destruct (cell_of_forest g classify n c t Et) as (e & ->).
  apply (weights_sum (length g) (classify c) HD n e 1 []). intros v a Hv. rewrite app_nil_r.
  unfold leaf_weight, leaf_data. cbn [fst snd]. rewrite Et, Hv. destruct a; reflexivity.
Qed.
Print Assumptions C33_weights_sum_to_one.

Lemma subtree_map : forall (A B : Type) (f : A -> B) t p, subtree (tree_map f t) p = option_map (tree_map f) (subtree t p).
Proof.
  intros A B f t p. induction p as [|i p IH]; [reflexivity|]. simpl. rewrite IH. destruct (subtree t p) as [[a|childs]|]; simpl; try reflexivity.
  apply nth_error_map.
Qed.
Lemma subtree_map_leaf : forall (A B : Type) (f : A -> B) t p b, subtree (tree_map f t) p = Some (Leaf b) -> exists a, subtree t p = Some (Leaf a) /\ b = f a.
Proof.
  intros A B f t p b H. rewrite subtree_map in H. destruct (subtree t p) as [[a|childs]|]; simpl in H; try discriminate. inversion H. eauto.
Qed.
Lemma leaf_paths_map : forall (A B : Type) (f : A -> B) t p, leaf_paths p (tree_map f t) = leaf_paths p t.
Proof.
  intros A B f t. induction t as [a|childs IH] using tree_ind'; intros p; [reflexivity|]. simpl. f_equal.
  revert IH. generalize 0%nat. induction childs as [|c childs IHc]; intros k IH; [reflexivity|]. inversion IH; subst. simpl. f_equal; auto.
Qed.
Lemma full_map : forall (A B : Type) (f : A -> B) D t, full D t -> full D (tree_map f t).
Proof.
  intros A B f D t. induction t as [a|childs IH] using tree_ind'; intros H; simpl; constructor; inversion H; subst.
  - rewrite map_length. assumption.
  - rewrite Forall_forall in *. intros s I. apply in_map_iff in I. destruct I as (c & <- & I). apply IH; auto.
Qed.

Lemma cell_weight_volume : forall g classify n type c t l, valid_grid g -> (length g = 2 \/ length g = 3)%nat ->
  let cells := subdivide_intersected_cells g classify n in
  nth_error cells c = Some t -> leaves_of_cell cells c l ->
  get_cell_weight (fun p => type (c, p)) [] (tree_map snd t) * cell_volume g = kept_volume g type l.
Proof.
  intros g classify n type c t l Hg HD cells Et Hl.
  unfold kept_volume. change total with Rsum. rewrite (Rsum_permutation _ _ (Permutation_map _ (leaves_permutation _ _ _ _ _ Et Hl))), map_map.
  rewrite (cell_weight_sum _ (tree_map snd t) [] (fun p => if retained (type (c, p)) then leaf_weight cells (c, p) else 0)).
  - rewrite leaf_paths_map, <- Rsum_scal_r. apply Rsum_ext. intros p I. apply in_leaf_paths in I. destruct I as (w & a & -> & Ea). rewrite app_nil_r.
    assert (L : leaf cells (c, w) (fst a, snd a)) by (exists t; destruct a; auto).
    destruct (C33_weight_is_volume_ratio g classify n (c, w) (fst a) (snd a) Hg HD L) as [V _]. rewrite V.
    unfold leaf_weight, leaf_data. cbn [fst snd]. rewrite Et, Ea. destruct a as [ty x]. cbn [snd]. destruct (type (c, w)); cbn; lra.
  - intros v b Hv. rewrite app_nil_r. apply subtree_map_leaf in Hv. destruct Hv as (a & Ha & ->). destruct (retained (type (c, v))); [|reflexivity].
    unfold leaf_weight, leaf_data. cbn [fst snd]. rewrite Et, Ha. destruct a. reflexivity.
Qed.

(** The volume ratio of a cell (of 1 - the part that is outside) is the part of its volume that is kept, whatever the types. *)
Theorem C33_cell_weight : forall g classify n type c t l, valid_grid g -> (length g = 2 \/ length g = 3)%nat ->
  let cells := subdivide_intersected_cells g classify n in
  nth_error cells c = Some t -> leaves_of_cell cells c l ->
  get_cell_weight (fun p => type (c, p)) [] (tree_map snd t) * cell_volume g = kept_volume g type l.
Proof. intros g classify n type c t l Hg HD cells. apply cell_weight_volume; assumption. Qed.
Print Assumptions C33_cell_weight.

(** The weights of the quadrature points sum to the volume that is kept, at whatever level the tree is cut. *)
Theorem C33_quadrature_weights : forall g classify n type level c t l, valid_grid g -> (length g = 2 \/ length g = 3)%nat ->
  let cells := subdivide_intersected_cells g classify n in
  nth_error cells c = Some t -> leaves_of_cell cells c l ->
  total (map snd (get_gauss_nodes_of_cell g (fun p => type (c, p)) level (tree_map snd t))) = kept_volume g type l.
Proof.
  intros g classify n type level c t l Hg HD cells Et Hl.
  rewrite <- (cell_weight_volume g classify n type c t l Hg HD Et Hl).
  unfold get_gauss_nodes_of_cell. rewrite map_map. cbn [snd]. change total with Rsum.
  rewrite (Rsum_scal_r _ (fun x : list R * R => snd x)). 
  rewrite (gauss_sum (length g) _ HD).
  - assert (P : fold_right Rmult 1 (map (fun a => ax_H a / 2) g) = cell_volume g / 2 ^ length g).
    { unfold cell_volume. clear. induction g as [|a g IH]; simpl; [lra|]. rewrite IH. field. apply pow_nonzero. lra. }
    rewrite P. field. apply pow_nonzero. lra.
  - apply full_map. destruct (C35_subdivision_is_valid g classify n Hg HD) as (_ & _ & _ & Hf). rewrite Forall_forall in Hf.
    apply Hf. eapply nth_error_In. exact Et.
Qed.
Print Assumptions C33_quadrature_weights.

(** The check of the total volume never fails (exact arithmetic). *)
Theorem C33_validation_passes : forall g classify n type st, valid_grid g -> (length g = 2 \/ length g = 3)%nat ->
  let cells := subdivide_intersected_cells g classify n in
  create_regions (subdivisions g) cells type = Some (Ok st) ->
  validate_grid g (leaf_weight cells) (fst (tag_inside (tag_outside (subdivisions g) (regions st, type)))) = true.
Proof.
  intros g classify n type st Hg HD cells E.
  pose proof (C35_subdivision_is_valid g classify n Hg HD) as Hv. fold cells in Hv.
  destruct (create_regions_spec _ g cells Hv type) as (st' & E' & L). rewrite E in E'. inversion E'; subst st'. clear E'.
  change (outer (faces_of (subdivisions g) cells) type (all_leaves cells) st /\ (forall y, a_leaf cells y -> region_id st y <> (-1)%Z))
    with (labelled _ g cells type st) in L.
  destruct (tagging_spec _ g cells Hv type st L) as [T1 _].
  set (rs := fst (tag_inside (tag_outside (subdivisions g) (regions st, type)))) in *.
  assert (S : map snd rs = map snd (regions st)).
  { rewrite T1, map_map. apply map_ext. intros r. rewrite !snd_retagged. reflexivity. }
  unfold validate_grid. fold (cell_volume g).
  assert (V : fold_right Rplus 0 (map (fun r : cell_type * list ptr => fold_right Rplus 0 (map (fun c => leaf_weight cells c * cell_volume g) (snd r))) rs)
    = fold_right Rmult 1 (map ax_size g)).
  { change (fold_right Rplus 0) with Rsum.
    rewrite <- (map_map (snd (A := cell_type) (B := list ptr)) (fun l => Rsum (map (fun c => leaf_weight cells c * cell_volume g) l)) rs), S.
    assert (C : forall ls : list (list ptr), Rsum (map (fun l => Rsum (map (fun c => leaf_weight cells c * cell_volume g) l)) ls)
        = Rsum (map (leaf_weight cells) (concat ls)) * cell_volume g).
    { induction ls as [|l ls IH]; simpl; [lra|]. rewrite map_app, Rsum_app, IH.
      change (fold_right Rplus 0) with Rsum. rewrite Rsum_scal_r. lra. }
    rewrite C. rewrite (Rsum_permutation _ _ (Permutation_map _ (regions_permutation _ g cells type st Hv L))).
    pose proof (all_weights g classify n Hg HD) as AW. cbv zeta in AW. fold cells in AW. rewrite AW. clear -Hg. destruct Hg as [_ F]. unfold cell_volume, number_of_cells.
    induction F as [|a g [Ha _] F IH]; simpl; [lra|]. rewrite mult_IZR. unfold ax_H at 1.
    assert (IZR (ax_n a) <> 0) by (apply not_0_IZR; lia).
    transitivity (ax_size a * (IZR (fold_right Z.mul 1%Z (subdivisions g)) * fold_right Rmult 1 (map ax_H g))); [field; assumption|].
    rewrite IH. reflexivity. }
  rewrite V. destruct (Rlt_dec _ _) as [C|_]; [|reflexivity]. exfalso. rewrite Rminus_diag_eq, Rabs_R0 in C by reflexivity.
  assert (0 < fold_right Rmult 1 (map ax_size g)).
  { clear -Hg. destruct Hg as [_ F]. induction F as [|a g [_ Hs] F IH]; simpl; [lra|]. apply Rmult_lt_0_compat; assumption. }
  lra.
Qed.
Print Assumptions C33_validation_passes.

(** A square of side 2 cut by the line x + y = 1 (unit cell, two levels): the leaves on and below the line are kept. *)
Definition half_plane (x : list R) : R := nth 0 x 0 + nth 1 x 0 - 9 / 8.
Definition one_cell : grid := [Axis 0 1 1; Axis 0 1 1].
Example C33_hypotheses : valid_grid one_cell /\ (length one_cell = 2)%nat /\
  length (subdivide_intersected_cells one_cell (fun _ => classify_iso 2 half_plane) 2) = 1%nat.
Proof.
  split; [|split; reflexivity]. split; [simpl; lia|]. repeat constructor; simpl; try lia; lra.
Qed.

(** ** C34 *)

Lemma full_has_leaf : forall D, (D = 2 \/ D = 3)%nat -> forall c : tree R, full D c -> exists v a, subtree c v = Some (Leaf a).
Proof.
  intros D HD c. induction c as [a|cs IH] using tree_ind'; intros H; [exists [], a; reflexivity|]. inversion H as [|? Lc Fc]; subst.
  destruct cs as [|s cs]; [destruct HD as [->| ->]; discriminate|]. apply Forall_inv in IH. apply Forall_inv in Fc.
  destruct (IH Fc) as (v & a & E). exists (v ++ [0%nat]), a. rewrite subtree_last. exact E.
Qed.

(** The sub-cells next to the points are the right ones as long as no point comes from a sub-cell of the second level: either
    the cell has at most one level and none is cut, or (3D) the tree is cut at the first level at the latest. *)
Theorem C34_points_in_their_cells_partial : forall D type (t : tree R) level, (D = 2 \/ D = 3)%nat -> full D t ->
  (depth_at_most 1 t /\ depth_at_most level t) \/ (D = 3%nat /\ (level <= 1)%nat) ->
  exists owners, represents D level (get_cell_weight type) t (get_gauss_cells D type level (unit_box D) [] t) owners.
Proof.
  intros D type t level HD Hf Hl.
  assert (Top : forall c : tree R, c = t -> forall w, c = Leaf w -> exists owners, represents D level (get_cell_weight type) t (get_gauss_cells D type level (unit_box D) [] t) owners).
  { intros c <- w ->. exists (repeat [] (2 ^ D)). apply rep_top. cbn [get_gauss_cells].
    replace (map (fun gn : list R * R => (fst gn, if retained (type []) then snd gn * w else 0)) (gauss_nodes D))
      with (map (fun gn : list R * R => (box_world (sub_box D (unit_box D) []) (fst gn), if retained (type []) then snd gn * w else 0)) (gauss_nodes D)).
    - apply rep_leaf; [exact HD|constructor|simpl; lia].
    - apply map_ext_in. intros gn I. cbn [sub_box]. rewrite world_unit; [reflexivity|]. apply (gauss_local D HD gn I). }
  destruct t as [w|childs]; [apply (Top (Leaf w) eq_refl w eq_refl)|]. clear Top.
  inversion Hf as [|? Hlen Hc]; subst.
  destruct level as [|level].
  - assert (D = 3%nat).
    { destruct Hl as [[_ H0]|[H _]]; [|exact H]. exfalso.
      destruct (nth_error childs 0) as [c|] eqn:Ec.
      2: { apply nth_error_None in Ec. rewrite Hlen in Ec. destruct HD as [->| ->]; simpl in Ec; lia. }
      rewrite Forall_forall in Hc. destruct (full_has_leaf D HD c) as (v & a & E); [apply Hc; eapply nth_error_In; exact Ec|].
      specialize (H0 (v ++ [0%nat]) a). rewrite subtree_last, Ec in H0. specialize (H0 E). rewrite app_length in H0. simpl in H0. lia. }
    subst D. exists (map (fun i => [i]) (seq 0 8)). apply rep_top. cbn [get_gauss_cells].
    pose proof (rep_truncated type [] childs (Forall_nil _) Hlen) as T.
    erewrite mapi_ext; [exact T|]. intros i gn E. cbn [fst sub_box]. f_equal. symmetry. apply (world_unit 3).
    apply (gauss_local 3 (or_intror eq_refl) gn (nth_error_In _ _ E)).
  - set (O := fun (i : nat) (c : tree R) => match c with Leaf _ => repeat [i] (2 ^ D) | Node _ => map (fun j => j :: [i]) (seq 0 8) end).
    exists (concat (mapi O 0 childs)). apply rep_top. cbn [get_gauss_cells].
    match goal with |- rep _ _ _ _ _ (concat (mapi ?L 0 childs)) _ => apply (rep_node D HD type (S level) [] childs L O) end. intros i c Ec.
    assert (Hi : (i < 2 ^ D)%nat) by (rewrite <- Hlen; apply nth_error_Some; congruence).
    assert (G : good D [i]) by (repeat constructor; exact Hi).
    destruct c as [w|cs].
    + cbn [get_gauss_cells O]. rewrite map_map. cbn [fst snd]. apply (rep_leaf D HD type (S level) [i] w G). simpl. lia.
    + destruct Hl as [[H1 _]|[-> H1]].
      { exfalso. assert (F : full D (Node cs)) by (rewrite Forall_forall in Hc; apply Hc; eapply nth_error_In; exact Ec).
        inversion F as [|? Lc Fc]; subst. destruct cs as [|s cs]; [destruct HD as [->| ->]; discriminate|]. apply Forall_inv in Fc.
        destruct (full_has_leaf D HD s Fc) as (v & a & E). specialize (H1 ((v ++ [0%nat]) ++ [i]) a). rewrite subtree_last, Ec, subtree_last in H1.
        specialize (H1 E). rewrite !app_length in H1. simpl in H1. lia. }
      assert (level = 0%nat) by lia. subst level. cbn [get_gauss_cells O]. rewrite map_mapi. cbn [fst snd].
      apply (rep_truncated type [i] cs G). rewrite Forall_forall in Hc. specialize (Hc _ (nth_error_In _ _ Ec)). inversion Hc; subst. assumption.
Qed.
Print Assumptions C34_points_in_their_cells_partial.

(** From the second level on the points are moved twice: when the first level is entirely divided and the requested level is at
    least two, no point has any coordinate in [-1/2, 1/2], so that the sub-cells that touch the middle of the cell have no points
    at all, whatever they weigh. *)
Theorem C34_second_level_positions : forall D type childs level x, (D = 2 \/ D = 3)%nat -> full D (Node childs) ->
  (forall i c, nth_error childs i = Some c -> is_leaf c = false) -> (2 <= level)%nat ->
  In x (get_gauss_cells D type level (unit_box D) [] (Node childs)) -> forall a, (a < D)%nat -> / 2 < Rabs (nth a (fst x) 0).
Proof. exact deep_points. Qed.
Print Assumptions C34_second_level_positions.

Lemma sub_box_inside : forall D p u x, (D = 2 \/ D = 3)%nat -> good D (u ++ p) ->
  inside_box D (sub_box D (unit_box D) (u ++ p)) x -> inside_box D (sub_box D (unit_box D) p) x.
Proof.
  intros D p u x HD. induction u as [|i u IH]; intros G H; [exact H|]. cbn [app] in *. inversion G; subst. apply IH; [assumption|].
  pose proof (sub_wf D HD (u ++ p) H3) as W. destruct (subcell_wf D HD _ i W H2) as [_ S]. destruct W as (_ & _ & W). intros a Ha. specialize (H a Ha).
  cbn [sub_box] in H. destruct (S a Ha) as [S1 S2]. rewrite upper_lower in *. rewrite S1, S2 in H. specialize (W a Ha).
  destruct (bit_range D HD a i Ha H2) as [B|B]; rewrite B in H; lra.
Qed.

Theorem C34_second_level_refuted : forall D type childs level, (D = 2 \/ D = 3)%nat -> full D (Node childs) ->
  (forall i c, nth_error childs i = Some c -> is_leaf c = false) -> (2 <= level)%nat ->
  ~ exists owners, represents D level (get_cell_weight type) (Node childs) (get_gauss_cells D type level (unit_box D) [] (Node childs)) owners.
Proof.
  intros D type childs level HD Hf Hn Hl (owners & R1 & R2 & R3 & R4).
  set (k := (2 ^ D - 1)%nat). assert (P : (1 < 2 ^ D)%nat) by (destruct HD as [->| ->]; simpl; lia).
  inversion Hf as [|? Hlen Hc]; subst. rewrite Forall_forall in Hc.
  destruct (nth_error childs 0) as [c|] eqn:Ec; [|apply nth_error_None in Ec; lia].
  pose proof (Hc c (nth_error_In _ _ Ec)) as Fc. pose proof (Hn 0%nat c Ec) as Hn0. destruct c as [w|cs]; [discriminate|]. inversion Fc as [|? Hlen' Hc']; subst.
  destruct (nth_error cs k) as [d|] eqn:Ed; [|apply nth_error_None in Ed; unfold k in Ed; lia].
  rewrite Forall_forall in Hc'. destruct (full_has_leaf D HD d (Hc' d (nth_error_In _ _ Ed))) as (v & a & Ea).
  set (p := (v ++ [k]) ++ [0%nat]).
  assert (Ep : subtree (Node childs) p = Some (Leaf a)) by (unfold p; rewrite subtree_last, Ec, subtree_last, Ed; exact Ea).
  destruct (R4 p a Ep) as (q & (Iq & u & Eu) & _). destruct (R3 q Iq) as (s & Es & Fe & _).
  assert (Gq : good D p).
  { destruct (nth_error [Node childs] 0) as [t|] eqn:Et; [|discriminate].
    eapply full_indices; [|exact Ep]. exact Hf. }
  (* the owner is at the second level at least *)
  assert (Q : exists u', q = u' ++ [k; 0%nat]).
  { unfold p in Eu. destruct q as [|i q _] using rev_ind.
    - exfalso. inversion Es; subst s. destruct Fe as [[F _]|F]; discriminate.
    - rewrite app_assoc in Eu. apply app_inj_tail in Eu. destruct Eu as [Eu <-]. destruct q as [|j q _] using rev_ind.
      + exfalso. change (nth_error childs 0 = Some s) in Es. rewrite Ec in Es. inversion Es; subst s. destruct Fe as [[F _]|F]; [discriminate|]. simpl in F. lia.
      + rewrite app_assoc in Eu. apply app_inj_tail in Eu. destruct Eu as [_ <-]. exists q. rewrite <- app_assoc. reflexivity. }
  destruct Q as (u' & Q). apply In_nth_error in Iq. destruct Iq as (m & Em).
  destruct (nth_error (get_gauss_cells D type level (unit_box D) [] (Node childs)) m) as [x|] eqn:Ex.
  2: { apply nth_error_None in Ex. assert (m < length owners)%nat by (apply nth_error_Some; congruence). lia. }
  pose proof (R2 m q x Em Ex) as B. rewrite Q in B.
  assert (G2 : good D (u' ++ [k; 0%nat])).
  { rewrite <- Q. rewrite Eu in Gq. apply Forall_app in Gq. apply Gq. }
  apply (sub_box_inside D [k; 0%nat] u' _ HD G2) in B. assert (Ha : (0 < D)%nat) by (destruct HD as [->| ->]; lia).
  pose proof (B 0%nat Ha) as B0. cbn [sub_box] in B0.
  assert (Hk : (k < 2 ^ D)%nat) by (unfold k; lia). assert (H0 : (0 < 2 ^ D)%nat) by lia.
  pose proof (unit_wf D) as W0. destruct (subcell_wf D HD _ 0 W0 H0) as [W1 S1]. destruct (subcell_wf D HD _ k W1 Hk) as [_ S2].
  destruct (S1 0%nat Ha) as [S11 S12]. destruct (S2 0%nat Ha) as [S21 S22]. destruct (unit_lower D 0 Ha) as [U1 U2].
  rewrite upper_lower, S21, S22, S11, S12, U1, U2 in B0.
  assert (B1 : bit D 0 0 = 0%Z /\ bit D 0 k = 1%Z) by (unfold k; destruct HD as [->| ->]; split; reflexivity). destruct B1 as [B1 B2]. rewrite B1, B2 in B0.
  pose proof (deep_points D type childs level x HD Hf Hn Hl (nth_error_In _ _ Ex) 0%nat Ha) as F.
  rewrite Rabs_left in F by lra. lra.
Qed.
Print Assumptions C34_second_level_refuted.

(** In two dimensions the reference points are not in the order of the sub-cells: when the tree is cut, the points of the two
    upper sub-cells carry the weight of each other. *)
Theorem C34_two_dimensions_cut_refuted : forall type c0 c1 c2 c3,
  get_cell_weight type [2%nat] c2 <> get_cell_weight type [3%nat] c3 ->
  ~ exists owners, represents 2 0 (get_cell_weight type) (Node [c0; c1; c2; c3])
      (get_gauss_cells 2 type 0 (unit_box 2) [] (Node [c0; c1; c2; c3])) owners.
Proof.
  intros type c0 c1 c2 c3 N (owners & R1 & R2 & R3 & R4).
  cbn [get_gauss_cells gauss_nodes RectangularQuad_Linear_gauss mapi length nth fst snd] in *.
  destruct owners as [|o0 [|o1 [|o2 [|o3 [|? ?]]]]]; try discriminate R1.
  pose proof third as T.
  (* every owner is a child *)
  assert (Child : forall o, In o [o0; o1; o2; o3] -> o = [0%nat] \/ o = [1%nat] \/ o = [2%nat] \/ o = [3%nat]).
  { intros o I. destruct (R3 o I) as (s & Es & Fe & _). destruct o as [|i [|j o]].
    - inversion Es; subst s. destruct Fe as [[F _]|F]; discriminate.
    - simpl in Es. assert (i < 4)%nat by (change 4%nat with (length [c0; c1; c2; c3]); apply nth_error_Some; congruence).
      apply below4 in H. intuition (subst; auto).
    - destruct Fe as [[_ F]|F]; simpl in F; [lia|discriminate]. }
  assert (Pos : forall k o x, nth_error [o0; o1; o2; o3] k = Some o -> nth_error (map fst (gauss_nodes 2)) k = Some x ->
     inside_box 2 (sub_box 2 (unit_box 2) o) x).
  { intros k o x Eo Ex. do 4 (destruct k as [|k]; [cbn in Ex; inversion Ex; subst x; match goal with |- inside_box _ _ ?x => eapply (R2 _ o (x, _) Eo) end; reflexivity|]).
    destruct k; discriminate. }
  assert (Owner : o0 = [0%nat] /\ o1 = [1%nat] /\ o2 = [3%nat] /\ o3 = [2%nat]).
  { repeat split.
    all: match goal with |- ?o = _ => destruct (Child o) as [E|[E|[E|E]]]; [simpl; auto|..] end; try exact E; exfalso.
    all: match type of E with ?o = _ =>
      first [pose proof (Pos 0%nat o _ eq_refl eq_refl) as B; cbn in E | pose proof (Pos 1%nat o _ eq_refl eq_refl) as B | pose proof (Pos 2%nat o _ eq_refl eq_refl) as B | pose proof (Pos 3%nat o _ eq_refl eq_refl) as B] end.
    all: rewrite E in B; pose proof (B 0%nat ltac:(lia)) as Bx; pose proof (B 1%nat ltac:(lia)) as By; clear B;
      unfold lower, upper in Bx, By; cbn in Bx, By; rewrite ?minus_third in Bx, By; lra. }
  destruct Owner as (-> & -> & -> & ->).
  destruct (R3 [3%nat]) as (s & Es & _ & W); [simpl; auto|]. cbn in Es. inversion Es; subst s.
  unfold owned, total in W. cbn in W. lra.
Qed.
Print Assumptions C34_two_dimensions_cut_refuted.

(** Hypotheses of the theorems above *)
Example C34_partial_hypotheses : forall w0 w1 w2 w3 : R, full 2 (Node [Leaf w0; Leaf w1; Leaf w2; Leaf w3]) /\ depth_at_most 1 (Node [Leaf w0; Leaf w1; Leaf w2; Leaf w3]).
Proof.
  intros. split; [repeat constructor|]. intros p a H. destruct p as [|i p _] using rev_ind; [simpl; lia|]. rewrite subtree_last in H.
  do 4 (destruct i as [|i]; [cbn [nth_error] in H; apply subtree_leaf in H as [-> _]; simpl; lia|]). destruct i; discriminate.
Qed.
Example C34_refuted_hypotheses : let q : tree R := Node [Leaf (/ 16); Leaf (/ 16); Leaf (/ 16); Leaf (/ 16)] in
  full 2 (Node [q; q; q; q]) /\ forall i c, nth_error [q; q; q; q] i = Some c -> is_leaf c = false.
Proof.
  split; [repeat constructor|]. intros i c H. do 4 (destruct i as [|i]; [inversion H; reflexivity|]). destruct i; discriminate.
Qed.
Example C34_cut_hypotheses : get_cell_weight (fun p => if list_eq_dec Nat.eq_dec p [3%nat] then Inside else Outside) [2%nat] (Leaf (/ 4))
  <> get_cell_weight (fun p => if list_eq_dec Nat.eq_dec p [3%nat] then Inside else Outside) [3%nat] (Leaf (/ 4)).
Proof. cbn. lra. Qed.
