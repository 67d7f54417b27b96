(** Corners of the cells, types of points, cells kept with an implicit surface. *)

From Coq Require Import ZArith Reals Lra Lia Permutation.
From Coq Require Import List Arith Bool.
From Verif Require Import GridModel GridSpec GridProofs GridGeoModel GridGeoSpec GridGeoProofs ShapeModel Sums FictModel FictSpec FictProofs FictProofs2
  FictProofs3 FictProofs4 FictProofs5 FictProofs6 FictProofs8.
Import ListNotations.
Open Scope R_scope.

(** * Corners *)
Lemma ax_node_plane : forall a i, valid_axis a -> ax_node a i = plane a i.
Proof. intros a i [Hn _]. unfold ax_node, plane, ax_H. field. apply not_0_IZR. lia. Qed.

Lemma axiswise_inv2 : forall P a b i j x, axiswise P [a; b] [i; j] x <-> exists u v, x = [u; v] /\ P a i u /\ P b j v.
Proof.
  intros P a b i j x. split.
  - intros H. inversion H as [|? ? ? ? u ? H1 H2]; subst. inversion H2 as [|? ? ? ? v ? H3 H4]; subst. inversion H4; subst. exists u, v. auto.
  - intros (u & v & -> & H1 & H2). repeat constructor; assumption.
Qed.
Lemma axiswise_inv3 : forall P a b c i j k x, axiswise P [a; b; c] [i; j; k] x <-> exists u v w, x = [u; v; w] /\ P a i u /\ P b j v /\ P c k w.
Proof.
  intros P a b c i j k x. split.
  - intros H. inversion H as [|? ? ? ? u ? H1 H2]; subst. apply axiswise_inv2 in H2. destruct H2 as (v & w & -> & H3 & H4). exists u, v, w. auto.
  - intros (u & v & w & -> & H1 & H2 & H3). repeat constructor; assumption.
Qed.

(** The nodes of a cell of the grid are the corners of its box. *)
Lemma nodes_are_corners : forall g c x, valid_grid g -> (length g = 2 \/ length g = 3)%nat -> cell_of g c ->
  In x (map (node_at_index g) (node_indices_of (subdivisions g) (cell_index_at (subdivisions g) c))) <-> corner_of g c x.
Proof.
  intros g c x Hg HD Hc. pose proof (flat_inverse g Hg) as [F _]. destruct (F c Hc) as [B I].
  rewrite <- cell_nodes_correct by assumption. destruct Hg as [_ Hv].
  destruct g as [|a [|b [|d [|? ?]]]]; simpl in HD; try lia.
  - inversion Hv as [|? ? Ha Hv1]; subst. inversion Hv1 as [|? ? Hb _]; subst.
    inversion Hc as [|? i ? ? Hi Hc1]; subst. inversion Hc1 as [|? j ? ? Hj Hc2]; subst. inversion Hc2; subst.
    unfold corner_of. rewrite axiswise_inv2. cbn [subdivisions map] in *. cbn [cell_nodes]. unfold cell_nodes in *.
    cbn [subdivisions map] in *. rewrite I. cbn [quad_corners map map3]. rewrite !world_low, !world_high, !ax_node_plane by assumption. split.
    + intros H. simpl in H. destruct H as [<-|[<-|[<-|[<-|[]]]]]; eexists; eexists; (split; [reflexivity|]); auto.
    + intros (u & v & -> & [->| ->] & [->| ->]); simpl; auto 10.
  - inversion Hv as [|? ? Ha Hv1]; subst. inversion Hv1 as [|? ? Hb Hv2]; subst. inversion Hv2 as [|? ? Hd _]; subst.
    inversion Hc as [|? i ? ? Hi Hc1]; subst. inversion Hc1 as [|? j ? ? Hj Hc2]; subst. inversion Hc2 as [|? k ? ? Hk Hc3]; subst. inversion Hc3; subst.
    unfold corner_of. rewrite axiswise_inv3. unfold cell_nodes in *.
    cbn [subdivisions map] in *. rewrite I. cbn [hexa_corners map map3]. rewrite !world_low, !world_high, !ax_node_plane by assumption. split.
    + intros H. simpl in H. destruct H as [<-|[<-|[<-|[<-|[<-|[<-|[<-|[<-|[]]]]]]]]]; eexists; eexists; eexists; (split; [reflexivity|]); auto.
    + intros (u & v & w & -> & [->| ->] & [->| ->] & [->| ->]); simpl; auto 12.
Qed.

Lemma cell_index_natural : forall g c, valid_grid g -> cell_of g c ->
  let i := Z.to_nat (cell_index_at (subdivisions g) c) in
  (i < Z.to_nat (number_of_cells (subdivisions g)))%nat /\ Z.of_nat i = cell_index_at (subdivisions g) c.
Proof.
  intros g c Hg Hc i. pose proof (flat_inverse g Hg) as [F _]. destruct (F c Hc) as [[B1 B2] _]. unfold i. split; lia.
Qed.
Lemma cell_index_back : forall g i, valid_grid g -> (i < Z.to_nat (number_of_cells (subdivisions g)))%nat ->
  exists c, cell_of g c /\ cell_index_at (subdivisions g) c = Z.of_nat i.
Proof.
  intros g i Hg Hi. pose proof (flat_inverse g Hg) as [_ G]. destruct (G (Z.of_nat i)) as [B I]; [split; lia|].
  exists (cell_coordinates_of_index (subdivisions g) (Z.of_nat i)). auto.
Qed.

Lemma not_all_negative : forall (l : list (list R)) (f : list R -> R), ~ (forall x, In x l -> f x < 0) -> exists x, In x l /\ 0 <= f x.
Proof.
  induction l as [|y l IH]; intros f H; [exfalso; apply H; intros ? []|].
  destruct (Rlt_dec (f y) 0) as [L|L].
  - destruct (IH f) as (x & I & E); [intros C; apply H; intros x [<-|I]; auto|]. exists x. split; [right; exact I|exact E].
  - exists y. split; [left; reflexivity|lra].
Qed.
Lemma not_all_positive : forall (l : list (list R)) (f : list R -> R), ~ (forall x, In x l -> 0 < f x) -> exists x, In x l /\ f x <= 0.
Proof.
  intros l f H. destruct (not_all_negative l (fun x => - f x)) as (x & I & E); [intros C; apply H; intros x I; specialize (C x I); cbn beta in C; lra|].
  exists x. split; [exact I|lra].
Qed.

Lemma corner_type_correct : forall iso g c, valid_grid g -> (length g = 2 \/ length g = 3)%nat -> cell_of g c ->
  type_at_corners iso g c (corner_type iso (map (node_at_index g) (node_indices_of (subdivisions g) (cell_index_at (subdivisions g) c)))).
Proof.
  intros iso g c Hg HD Hc. pose proof (fun x => nodes_are_corners g c x Hg HD Hc) as N.
  pose proof (corner_type_spec iso (map (node_at_index g) (node_indices_of (subdivisions g) (cell_index_at (subdivisions g) c)))) as S.
  destruct S as [[-> S]|[[-> S]|(-> & S1 & S2)]]; cbn [type_at_corners].
  - intros x H. apply S, N, H.
  - intros x H. apply S, N, H.
  - apply not_all_negative in S1. apply not_all_positive in S2. destruct S1 as (x & I & E). destruct S2 as (y & J & F).
    split; [exists x|exists y]; (split; [apply N|]; assumption).
Qed.

(** The type is determined by the values at the corners. *)
Lemma type_at_corners_unique : forall iso g c t u, valid_grid g -> (length g = 2 \/ length g = 3)%nat -> cell_of g c ->
  type_at_corners iso g c t -> type_at_corners iso g c u -> t = u.
Proof.
  intros iso g c t u Hg HD Hc T U.
  assert (E : exists x, corner_of g c x).
  { clear -Hc. induction Hc as [|a i g c _ _ [x IH]]; [exists []; constructor|]. exists (plane a i :: x). constructor; [left; reflexivity|exact IH]. }
  destruct E as (x & Hx).
  destruct t, u; cbn [type_at_corners] in *; try contradiction; try reflexivity;
    try (specialize (T x Hx); specialize (U x Hx); lra);
    try (destruct U as [(y & Hy & ?) (z & Hz & ?)]; pose proof (T y Hy); pose proof (T z Hz); lra);
    try (destruct T as [(y & Hy & ?) (z & Hz & ?)]; pose proof (U y Hy); pose proof (U z Hz); lra).
Qed.

(** The element of the cell has the nodes of the cell. *)
Lemma element_nodes : forall g c, valid_grid g -> (length g = 2 \/ length g = 3)%nat -> cell_of g c ->
  map (box_world (cell_box g c)) (corners (length g)) = cell_nodes g (cell_index_at (subdivisions g) c).
Proof.
  intros g c Hg HD Hc. pose proof (flat_inverse g Hg) as [F _]. destruct (F c Hc) as [_ I]. unfold cell_nodes.
  destruct g as [|a [|b [|d [|? ?]]]]; simpl in HD; try lia.
  - inversion Hc as [|? i ? ? Hi Hc1]; subst. inversion Hc1 as [|? j ? ? Hj Hc2]; subst. inversion Hc2; subst.
    cbn [length corners quad_corners map map3 subdivisions] in *. rewrite I. unfold box_world, cell_box, ax_cell_world. cbn. repeat (f_equal; try lra).
  - inversion Hc as [|? i ? ? Hi Hc1]; subst. inversion Hc1 as [|? j ? ? Hj Hc2]; subst. inversion Hc2 as [|? k ? ? Hk Hc3]; subst. inversion Hc3; subst.
    cbn [length corners hexa_corners map map3 subdivisions] in *. rewrite I. unfold box_world, cell_box, ax_cell_world. cbn. repeat (f_equal; try lra).
Qed.

(** * Points *)
Lemma get_type_at_spec : forall g types p, valid_grid g -> in_grid g p -> length types = Z.to_nat (number_of_cells (subdivisions g)) ->
  clear_of_planes g p ->
  (forall c, cell_of g c -> closed_cell g c p -> (forall c', cell_of g c' -> closed_cell g c' p -> c' = c) ->
     exists t, nth_error types (Z.to_nat (cell_index_at (subdivisions g) c)) = Some t /\ get_type_at g types p = Ok t) /\
  (forall c1 c2, cell_of g c1 -> closed_cell g c1 p -> cell_of g c2 -> closed_cell g c2 p -> c1 <> c2 ->
     (type_around g types p Boundary \/ (type_around g types p Inside /\ type_around g types p Outside)) /\ get_type_at g types p = Ok Boundary \/
     ~ (type_around g types p Boundary \/ (type_around g types p Inside /\ type_around g types p Outside)) /\ get_type_at g types p = Thrown).
Proof.
  intros g types p Hg Hp Hl Hclear.
  assert (C : contains g p EPSILON = true).
  { unfold contains. destruct Hg as [_ Hv]. clear -Hv Hp. induction Hp as [|a x g p Hx _ IH]; [reflexivity|].
    inversion Hv as [|? ? [Hn Hs] Hv']; subst. cbn [map2 forallb]. rewrite (IH Hv'), andb_true_r.
    assert (0 < EPSILON) by (unfold EPSILON; apply Rinv_0_lt_compat, IZR_lt; reflexivity).
    unfold ax_contains. assert (D : 0 <= (x - ax_anchor a) / ax_size a <= 1).
    { split; [apply Rmult_le_pos; [lra|]; left; apply Rinv_0_lt_compat; lra|]. apply (Rmult_le_reg_r (ax_size a)); [exact Hs|]. unfold Rdiv. rewrite Rmult_assoc, Rinv_l; lra. }
    destruct (Rlt_dec _ _); [lra|]. destruct (Rlt_dec _ _); [lra|]. reflexivity. }
  pose proof (around_exact g p Hg Hp Hclear) as A. pose proof (cells_around_nodup g p Hg Hp) as N.
  set (ns := subdivisions g) in *.
  set (type_of := fun c => nth_error types (Z.to_nat c)).
  assert (T : forall c, cell_of g c -> exists t, type_of (cell_index_at ns c) = Some t).
  { intros c Hc. destruct (cell_index_natural g c Hg Hc) as [L _]. fold ns in L. unfold type_of.
    destruct (nth_error types _) as [t|] eqn:E; [eauto|]. apply nth_error_None in E. lia. }
  assert (Inj : forall c c', cell_of g c -> cell_of g c' -> cell_index_at ns c = cell_index_at ns c' -> c = c')
    by (apply (inverse_injective _ _ _ _ _ _ (flat_inverse g Hg))).
  split.
  - intros c Hc Bc U. destruct (T c Hc) as (t & Et). exists t. split; [exact Et|]. unfold get_type_at. rewrite C.
    assert (E : cells_around g p = [cell_index_at ns c]).
    { assert (I : In (cell_index_at ns c) (cells_around g p)) by (apply A; exists c; auto).
      assert (S : forall x, In x (cells_around g p) -> x = cell_index_at ns c).
      { intros x Ix. apply A in Ix. destruct Ix as (c' & Hc' & -> & B'). f_equal. apply U; assumption. }
      destruct (cells_around g p) as [|x [|y l]]; [destruct I| |].
      - rewrite (S x (or_introl eq_refl)). reflexivity.
      - exfalso. inversion N as [|? ? Nx _]; subst. apply Nx. left. rewrite (S x (or_introl eq_refl)). apply S. right. left. reflexivity. }
    rewrite E. change (match type_of (cell_index_at ns c) with Some t => Ok t | None => UndefinedBehaviour end = Ok t). rewrite Et. reflexivity.
  - intros c1 c2 H1 B1 H2 B2 Ne.
    assert (Around : forall ty, existsb (fun c => match type_of c with Some t => is t ty | None => false end) (cells_around g p) = true <-> type_around g types p ty).
    { intros ty. rewrite existsb_exists. unfold type_around. split.
      - intros (x & I & E). apply A in I. destruct I as (c & Hc & -> & B). exists c. split; [exact Hc|]. split; [exact B|].
        change (type_of (cell_index_at ns c) = Some ty). destruct (type_of (cell_index_at ns c)) as [t|]; [|discriminate]. unfold is in E.
        destruct (type_eqb_spec t ty); [subst; reflexivity|discriminate].
      - intros (c & Hc & B & E). exists (cell_index_at ns c). split; [apply A; exists c; auto|]. unfold type_of. fold ns in E. rewrite E.
        unfold is. destruct (type_eqb_spec ty ty); [reflexivity|congruence]. }
    assert (All : forallb (fun c => match type_of c with Some _ => true | None => false end) (cells_around g p) = true).
    { apply forallb_forall. intros x I. apply A in I. destruct I as (c & Hc & -> & _). destruct (T c Hc) as (t & ->). reflexivity. }
    assert (I1 : In (cell_index_at ns c1) (cells_around g p)) by (apply A; exists c1; auto).
    assert (I2 : In (cell_index_at ns c2) (cells_around g p)) by (apply A; exists c2; auto).
    pose proof (bits_fold type_of (cells_around g p) false false false false) as BF. rewrite All in BF. cbv zeta in BF. cbn [orb] in BF.
    unfold get_type_at. rewrite C. cbv zeta.
    destruct (cells_around g p) as [|x [|y l]] eqn:EA; [destruct I1| |].
    { exfalso. apply Ne. apply Inj; try assumption. destruct I1 as [<-|[]]. destruct I2 as [<-|[]]. reflexivity. }
    match type of BF with _ = Some ?zz =>
      assert (BF' : fold_left (fun acc c => match acc, nth_error types (Z.to_nat c) with Some z, Some t => Some (Z.lor z (type_value t)) | _, _ => None end)
        (x :: y :: l) (Some 0%Z) = Some zz) by exact BF end.
    rewrite BF'. clear BF'.
    match goal with |- context [bits ?u ?i ?o ?b] => destruct (bits_test u i o b) as (Tb & Ti & To) end. rewrite Tb, Ti, To. clear Tb Ti To BF.
    pose proof (Around Boundary) as Rb. pose proof (Around Inside) as Ri. pose proof (Around Outside) as Ro.
    match type of Rb with ?b = true <-> _ => destruct b end.
    + left. split; [left; apply Rb; reflexivity|reflexivity].
    + match type of Ri with ?b = true <-> _ => destruct b end; cbn [andb].
      * match type of Ro with ?b = true <-> _ => destruct b end.
        -- left. split; [right; split; [apply Ri|apply Ro]; reflexivity|reflexivity].
        -- right. split; [|reflexivity]. intros [H|[_ H]]; [apply Rb in H|apply Ro in H]; discriminate.
      * right. split; [|reflexivity]. intros [H|[H _]]; [apply Rb in H|apply Ri in H]; discriminate.
Qed.

(** * Cells kept with an implicit surface *)
Lemma sub_corner : forall D e i, (D = 2 \/ D = 3)%nat -> length (center e) = D -> length (sides e) = D -> (i < length (corners D))%nat ->
  exists j f, nth_error (get_subcells_elements D e) j = Some f /\ length (center f) = D /\ length (sides f) = D /\
    box_world f (nth i (corners D) []) = box_world e (nth i (corners D) []).
Proof.
  intros D [c h] i HD Lc Lh Hi. cbn [center sides] in *. destruct HD as [-> | ->].
  - destruct c as [|c1 [|c2 [|? ?]]]; try discriminate. destruct h as [|h1 [|h2 [|? ?]]]; try discriminate. simpl in Hi.
    do 4 (destruct i as [|i]; [match goal with |- context [nth ?k (corners 2)] =>
      let j := eval compute in (nth k [0; 1; 3; 2]%nat 0%nat) in exists j end; eexists; (split; [reflexivity|]); (split; [reflexivity|]); (split; [reflexivity|]);
      unfold box_world; cbn; repeat (f_equal; try lra)|]). lia.
  - destruct c as [|c1 [|c2 [|c3 [|? ?]]]]; try discriminate. destruct h as [|h1 [|h2 [|h3 [|? ?]]]]; try discriminate. simpl in Hi.
    do 8 (destruct i as [|i]; [match goal with |- context [nth ?k (corners 3)] =>
      let j := eval compute in (nth k [0; 1; 3; 2; 4; 5; 7; 6]%nat 0%nat) in exists j end; eexists; (split; [reflexivity|]); (split; [reflexivity|]); (split; [reflexivity|]);
      unfold box_world; cbn; repeat (f_equal; try lra)|]). lia.
Qed.

Lemma subtree_cons : forall (A : Type) (childs : list (tree A)) j s p, nth_error childs j = Some s -> subtree (Node childs) (p ++ [j]) = subtree s p.
Proof. intros A childs j s p E. rewrite subtree_last. rewrite E. reflexivity. Qed.

Lemma retained_leaf : forall D iso, (D = 2 \/ D = 3)%nat -> forall n e w i,
  length (center e) = D -> length (sides e) = D -> (i < length (corners D))%nat -> iso (box_world e (nth i (corners D) [])) <= 0 ->
  exists p ty v, subtree (subdivide D (classify_iso D iso) n e w) p = Some (Leaf (ty, v)) /\ (ty = Inside \/ ty = Boundary).
Proof.
  intros D iso HD. induction n as [|n IH]; intros e w i Lc Ls Hi Hx;
    destruct (classify_iso_spec D iso e) as [S1 S2]; pose proof (corner_type_spec iso (map (box_world e) (corners D))) as S;
    rewrite <- S1 in S;
    assert (NO : fst (classify_iso D iso e) <> Outside) by
      (intros C; destruct S as [[S _]|[[_ S]|[S _]]]; try congruence;
       specialize (S (box_world e (nth i (corners D) [])) (in_map _ _ _ (nth_In _ _ Hi))); lra);
    assert (T : fst (classify_iso D iso e) = Inside \/ fst (classify_iso D iso e) = Boundary) by
      (destruct S as [[S _]|[[S _]|[S _]]]; tauto); cbn [subdivide];
    destruct (classify_iso D iso e) as [ty b] eqn:E; cbn [fst snd] in *.
  - exists [], ty, w. split; [reflexivity|exact T].
  - destruct b.
    + destruct (sub_corner D e i HD Lc Ls Hi) as (j & f & Ej & Lc' & Ls' & Ef).
      destruct (IH f (w / 2 ^ D) i Lc' Ls' Hi) as (p & ty' & v & Ep & Ty); [rewrite Ef; exact Hx|].
      exists (p ++ [j]), ty', v. split; [|exact Ty].
      rewrite (subtree_cons _ _ j (subdivide D (classify_iso D iso) n f (w / 2 ^ D))); [exact Ep|].
      rewrite nth_error_map, Ej. reflexivity.
    + exists [], ty, w. split; [reflexivity|exact T].
Qed.
