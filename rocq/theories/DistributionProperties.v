(** C100: the distribution of volume ratios lists every cell once, under the part of its volume that is kept. *)

From Coq Require Import ZArith Reals Lra Lia Permutation Sorted.
From Coq Require Import List Arith Bool.
From Verif Require Import GridModel GridSpec GridProofs GridGeoModel GridGeoSpec GridGeoProofs GridEnclosingProofs ShapeModel Sums FictModel FictSpec
  FictProofs FictProofs2 FictProofs3 FictProofs4 FictProofs5 FictProofs6 FictProofs8 FictProofs9 FictProofs10 FictProperties FictProperties2 FictProperties3
  FictProperties4 DistributionModel DistributionSpec DistributionProofs.
Import ListNotations.
Open Scope R_scope.

(** After the creation with an implicit surface, whatever the surface, the levels of subdivision, the threshold and the number of decimals:
    the table is defined, its keys increase, and a cell is under a key exactly when the key is the part of its volume that is kept, rounded. *)
Theorem C100_implicit : forall g iso n threshold s comp d, valid_grid g -> (length g = 2 \/ length g = 3)%nat ->
  create_grid_from_iso_surface g iso n threshold s = Some (Ok comp) ->
  exists m, cell_volume_ratio_distribution g comp d = Some m /\ sorts_by (volume_ratio g comp d) (Z.to_nat (number_of_cells (subdivisions g))) m.
Proof.
  intros g iso n threshold s comp d Hg HD Hc. destruct (created_iso g iso n threshold s comp Hg HD Hc) as [Ef H].
  destruct (table_sorts (cell_ratio comp d) (Z.to_nat (number_of_cells (subdivisions g)))) as (m & Em & Sm).
  - intros c Hlt. destruct (H c Hlt) as (t & ty & Et & Ey & _). unfold cell_ratio. rewrite Et, Ey. discriminate.
  - exists m. split; [exact Em|]. eapply sorts_by_ext; [|exact Sm]. intros c q Hlt. cbn beta. destruct (H c Hlt) as (t & ty & Et & Ey & H0 & H1 & NU).
    exact (ratio_of_weight g _ n comp d c t ty Hg HD Ef Et Ey H0 H1 NU q).
Qed.
Print Assumptions C100_implicit.

(** Every cell is under exactly one key, which is between 0 and 1. *)
Theorem C100_once : forall g iso n threshold s comp d c, valid_grid g -> (length g = 2 \/ length g = 3)%nat ->
  create_grid_from_iso_surface g iso n threshold s = Some (Ok comp) -> (c < Z.to_nat (number_of_cells (subdivisions g)))%nat ->
  exists m q, cell_volume_ratio_distribution g comp d = Some m /\ 0 <= q <= 1 /\ (exists l, In (q, l) m /\ In c l) /\
    forall q', (exists l, In (q', l) m /\ In c l) -> q' = q.
Proof.
  intros g iso n threshold s comp d c Hg HD Hc Hlt. destruct (created_iso g iso n threshold s comp Hg HD Hc) as [Ef H].
  destruct (C100_implicit g iso n threshold s comp d Hg HD Hc) as (m & Em & _ & _ & S3). destruct (H c Hlt) as (t & ty & Et & Ey & H0 & H1 & NU).
  pose proof (ratio_of_weight g _ n comp d c t ty Hg HD Ef Et Ey H0 H1 NU) as RW. pose proof (weight_positive g _ n comp c t Hg HD Ef Et) as WP.
  assert (Q : exists q, cell_ratio comp d c = Some (Some q)).
  { unfold cell_ratio. rewrite Et, Ey. destruct ty; [congruence|eexists; reflexivity|eexists; reflexivity|eexists; reflexivity]. }
  destruct Q as (q & Q). exists m, q. split; [exact Em|]. split; [|split].
  - apply RW in Q. destruct Q as (r & K & Rd). apply (weight_kept g _ n comp c t Hg HD Ef Et) in K. subst r. destruct (Nat.eq_dec d 0) as [->|Hd]; [cbn in Rd; subst; exact WP|].
    destruct (rounded_range d _ q Hd WP Rd) as (k & Hk & ->). assert (P : 0 < 10 ^ d) by (apply pow_lt; lra). apply le_INR in Hk. rewrite pow_INR in Hk.
    replace (INR 10) with 10 in Hk by (cbn; lra). pose proof (pos_INR k). split; [apply Rmult_le_pos; [lra|apply Rlt_le, Rinv_0_lt_compat, P]|].
    apply (Rmult_le_reg_r (10 ^ d)); [exact P|]. unfold Rdiv. rewrite Rmult_assoc, Rinv_l by lra. lra.
  - apply S3. split; [exact Hlt|]. apply RW. exact Q.
  - intros q' Hq'. apply S3 in Hq'. destruct Hq' as [_ V]. apply RW in V. congruence.
Qed.
Print Assumptions C100_once.

(** With decimals there are at most 10^d + 1 entries (the documentation says 100 for two decimals, and lists 101 of them). *)
Theorem C100_entries : forall g iso n threshold s comp d m, valid_grid g -> (length g = 2 \/ length g = 3)%nat -> d <> 0%nat ->
  create_grid_from_iso_surface g iso n threshold s = Some (Ok comp) -> cell_volume_ratio_distribution g comp d = Some m -> (length m <= 10 ^ d + 1)%nat.
Proof.
  intros g iso n threshold s comp d m Hg HD Hd Hc Em. destruct (C100_implicit g iso n threshold s comp d Hg HD Hc) as (m' & Em' & Sm).
  rewrite Em in Em'. inversion Em'; subst m'. destruct (created_iso g iso n threshold s comp Hg HD Hc) as [Ef H].
  apply (few_entries _ _ m d Sm). intros c q Hlt (r & K & Rd). destruct (H c Hlt) as (t & ty & Et & _).
  apply (weight_kept g _ n comp c t Hg HD Ef Et) in K. subst r. apply (rounded_range d (weight comp c t)); [exact Hd| |exact Rd].
  apply (weight_positive g _ n comp c t Hg HD Ef Et).
Qed.
Print Assumptions C100_entries.

(** The left cell of two is crossed by the line x = 1/2 and the right one is outside of it: the right one is listed under 0. *)
Example C100_example : exists comp m, create_grid_from_iso_surface two_cells (fun x => nth 0 x 0 - 1 / 2) 3 0 new_component = Some (Ok comp) /\
  cell_volume_ratio_distribution two_cells comp 2 = Some m /\ exists l, In (0, l) m /\ In 1%nat l.
Proof.
  destruct (C73_implicit_surface_partial two_cells (fun x => nth 0 x 0 - 1 / 2) 3 new_component two_cells_valid (or_introl eq_refl)) as (comp & Ec & Ty & _).
  { discriminate. }
  { exact C39_nonzero_example. }
  destruct (C100_implicit two_cells _ 3 0 new_component comp 2 two_cells_valid (or_introl eq_refl) Ec) as (m & Em & _ & _ & S3).
  exists comp, m. split; [exact Ec|]. split; [exact Em|]. apply S3. split; [cbn; lia|].
  destruct (created_iso two_cells _ 3 0 new_component comp two_cells_valid (or_introl eq_refl) Ec) as [Ef H]. destruct (H 1%nat) as (t & ty & Et & Ey & H0 & H1 & NU); [cbn; lia|].
  assert (O : ty = Outside).
  { assert (C : cell_of two_cells [1; 0]%Z) by (repeat constructor; simpl; lia). destruct (Ty [1; 0]%Z Outside C) as [_ T].
    assert (K : nth_error (cells_types (surface comp)) 1 = Some Outside); [|rewrite Ey in K; congruence]. apply T. cbn [type_at_corners]. intros x Cx.
    apply axiswise_inv2 in Cx. destruct Cx as (u & v & -> & Hu & _). unfold plane in Hu. simpl in Hu. cbn [nth]. destruct Hu; lra. }
  apply (ratio_of_weight two_cells _ 3 comp 2 1 t ty two_cells_valid (or_introl eq_refl) Ef Et Ey H0 H1 NU). unfold cell_ratio. rewrite Et, Ey, O. reflexivity.
Qed.

(** ** With a tessellated surface *)

(** After the creation on a new component with a tessellated surface, the table holds the cells that a triangle meets, and only them.
    Missing: the cells that no triangle meets (below). *)
Theorem C100_tessellated_partial : forall g pos triangles intersects exactly n threshold comp d, valid_grid g -> length g = 3%nat -> surface_in_grid g pos triangles ->
  create_grid_from_triangles g pos triangles intersects exactly n threshold new_component = Some (Ok comp) ->
  exists m, cell_volume_ratio_distribution g comp d = Some m /\
    sorts_by (fun c q => (exists i, meets g pos triangles intersects i c) /\ volume_ratio g comp d c q) (Z.to_nat (number_of_cells (subdivisions g))) m.
Proof.
  intros g pos triangles intersects exactly n threshold comp d Hg H3 HS Hc. assert (HD : (length g = 2 \/ length g = 3)%nat) by (right; exact H3).
  destruct (C73_tessellated_surface g pos triangles intersects exactly n threshold Hg H3 HS) as (comp' & Ec & Hv & Ty & _). rewrite Hc in Ec. inversion Ec; subst comp'. clear Ec.
  assert (Ef : exists cl, forest comp = subdivide_intersected_cells g cl n).
  { unfold create_grid_from_triangles in Hc. destruct (existsb _ _); [discriminate|]. eexists.
    match type of Hc with finish_grid g ?cl n threshold ?s' = _ => destruct (finish_grid_ok g cl n threshold s' Hg HD) as (st & comp' & _ & E & _ & S2 & _) end.
    rewrite Hc in E. inversion E; subst comp'. exact S2. }
  destruct Ef as (cl & Ef). assert (LN : length (forest comp) = Z.to_nat (number_of_cells (subdivisions g))) by (apply (cells_length g cl n comp Hg HD Ef)).
  destruct (table_sorts (cell_ratio comp d) (Z.to_nat (number_of_cells (subdivisions g)))) as (m & Em & Sm).
  - intros c Hlt. unfold cell_ratio. rewrite <- LN in Hlt. destruct (nth_error (forest comp) c) as [t|] eqn:Et; [|apply nth_error_None in Et; lia].
    destruct (Ty c Hlt) as [[-> _]|[-> _]]; discriminate.
  - exists m. split; [exact Em|]. eapply sorts_by_ext; [|exact Sm]. intros c q Hlt. cbn beta. rewrite <- LN in Hlt.
    destruct (nth_error (forest comp) c) as [t|] eqn:Et; [|apply nth_error_None in Et; lia]. destruct (Ty c Hlt) as [[Ey M]|[Ey M]].
    + rewrite (ratio_of_weight g cl n comp d c t Boundary Hg HD Ef Et Ey); [tauto|discriminate|discriminate|discriminate].
    + unfold cell_ratio. rewrite Et, Ey. split; [discriminate|]. intros [C _]. contradiction.
Qed.
Print Assumptions C100_tessellated_partial.

(** A cell that no triangle meets, inside or outside of the surface, has a volume ratio but is in no entry. *)
Theorem C100_tessellated_refuted : forall g pos triangles intersects exactly n threshold comp d c, valid_grid g -> length g = 3%nat -> surface_in_grid g pos triangles ->
  create_grid_from_triangles g pos triangles intersects exactly n threshold new_component = Some (Ok comp) ->
  (c < Z.to_nat (number_of_cells (subdivisions g)))%nat -> ~ (exists i, meets g pos triangles intersects i c) ->
  exists m, cell_volume_ratio_distribution g comp d = Some m /\ (exists r, kept_part g comp c r) /\ forall q l, In (q, l) m -> ~ In c l.
Proof.
  intros g pos triangles intersects exactly n threshold comp d c Hg H3 HS Hc Hlt NM. assert (HD : (length g = 2 \/ length g = 3)%nat) by (right; exact H3).
  destruct (C100_tessellated_partial g pos triangles intersects exactly n threshold comp d Hg H3 HS Hc) as (m & Em & _ & _ & S3).
  exists m. split; [exact Em|]. split.
  - assert (Ef : exists cl, forest comp = subdivide_intersected_cells g cl n).
    { unfold create_grid_from_triangles in Hc. destruct (existsb _ _); [discriminate|]. eexists.
      match type of Hc with finish_grid g ?cl n threshold ?s' = _ => destruct (finish_grid_ok g cl n threshold s' Hg HD) as (st & comp' & _ & E & _ & S2 & _) end.
      rewrite Hc in E. inversion E; subst comp'. exact S2. }
    destruct Ef as (cl & Ef). rewrite <- (cells_length g cl n comp Hg HD Ef) in Hlt. destruct (nth_error (forest comp) c) as [t|] eqn:Et; [|apply nth_error_None in Et; lia].
    exists (weight comp c t). apply (weight_kept g cl n comp c t Hg HD Ef Et). reflexivity.
  - intros q l Hl Hin. destruct (proj1 (S3 q c)) as [_ [M _]]; [exists l; split; assumption|]. contradiction.
Qed.
Print Assumptions C100_tessellated_refuted.

(** A triangle in the left one of two cubes: the left one is met, the right one is not. *)
Definition two_cubes : grid := [Axis 0 2 2; Axis 0 1 1; Axis 0 1 1].
Definition left_triangle : list (list R) := [[0; 0; 0]; [/ 2; 0; 0]; [0; / 2; / 2]].
Lemma two_cubes_valid : valid_grid two_cubes.
Proof. split; [simpl; lia|]. repeat constructor; simpl; try lia; lra. Qed.
Lemma in_two_cubes : forall x y z, 0 <= x <= 2 -> 0 <= y <= 1 -> 0 <= z <= 1 -> in_grid two_cubes [x; y; z].
Proof.
  intros x y z Hx Hy Hz. apply Forall2_cons; [|apply Forall2_cons; [|apply Forall2_cons; [|apply Forall2_nil]]];
    change (0 <= x <= 0 + 2) || change (0 <= y <= 0 + 1) || change (0 <= z <= 0 + 1); lra.
Qed.
Example C100_tessellated_example : let intersects := fun (c : Z) (_ : nat) => (c =? 0)%Z in
  surface_in_grid two_cubes left_triangle [[0; 1; 2]%nat] /\ meets two_cubes left_triangle [[0; 1; 2]%nat] intersects 0 0 /\
  ~ (exists i, meets two_cubes left_triangle [[0; 1; 2]%nat] intersects i 1) /\
  exists comp, create_grid_from_triangles two_cubes left_triangle [[0; 1; 2]%nat] intersects (fun _ _ => true) 2 0 new_component = Some (Ok comp).
Proof.
  intros intersects. assert (In3 : Forall (in_grid two_cubes) left_triangle).
  { apply Forall_cons; [|apply Forall_cons; [|apply Forall_cons; [|apply Forall_nil]]]; apply in_two_cubes; lra. }
  assert (S : surface_in_grid two_cubes left_triangle [[0; 1; 2]%nat]) by (split; [exact In3|repeat constructor]).
  assert (A : In 0%Z (cells_enclosing two_cubes left_triangle)).
  { apply (enclosing_covers two_cubes _ [0; 0; 0]%Z [0; 0; 0] two_cubes_valid).
    - discriminate.
    - exact In3.
    - repeat constructor; simpl; lia.
    - repeat constructor; unfold plane; simpl; lra.
    - intros k x E. destruct k as [|[|[|[|k]]]]; try discriminate; inversion E; subst;
        (split; exists [0; 0; 0], 0; (split; [left; reflexivity|]); (split; [reflexivity|lra])). }
  split; [exact S|]. split; [|split].
  - exists [0; 1; 2]%nat. split; [reflexivity|]. split; [exact A|right; reflexivity].
  - intros (i & t & E & _ & [Q|Q]); [|discriminate]. destruct i as [|[|i]]; inversion E; subst t. cbn [map nth] in Q.
    change (cells_enclosing two_cubes left_triangle = [1%Z]) in Q. rewrite Q in A. destruct A as [A|[]]. discriminate.
  - destruct (C73_tessellated_surface two_cubes left_triangle [[0; 1; 2]%nat] intersects (fun _ _ => true) 2 0 two_cubes_valid eq_refl S) as (comp & Ec & _).
    exists comp. exact Ec.
Qed.
