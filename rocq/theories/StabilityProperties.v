(** C93: the stiffness matrix of a hyperelastic body at rest. *)

From Coq Require Import ZArith Reals Lra Lia.
From Coquelicot Require Import Coquelicot.
From Coq Require Import List Arith Bool.
From Verif Require Import GridGeoModel ShapeModel ShapeSpec ShapeProofs ShapeGaussProofs LinAlg LinAlgProofs BarycentricModel MappingSpec MappingProofs TensorModel TensorSpec
  MaterialModel MaterialSpec MaterialProofs MaterialProperties SparseModel SparseProofs Sums HyperModel HyperSpec HyperProofs HyperProofs2 HyperProofs3 HyperProofs4 HyperProperties
  RectSpec NewtonLocalProofs TractionProofs SpectrumProofs StabilitySpec StabilityProofs StabilityProofs2 StabilityProofs3 StabilityProofs4 StabilityProofs5 StabilityProofs6 StabilityProofs8.
Import ListNotations.
Open Scope R_scope.

(** Young's moduli and Poisson's ratios of usual materials. *)
Theorem C93_usual_materials : forall k E nu, 0 < E -> -1 < nu < 1 / 2 -> stable (before_update k E nu).
Proof.
  intros k E nu HE [H1 H2]. unfold stable, before_update. cbn [mu lambda]. split; [apply Rdiv_lt_0_compat; lra|].
  replace (3 * _ + 2 * _) with (E / (1 - 2 * nu)) by (field; lra). apply Rdiv_lt_0_compat; lra.
Qed.
Print Assumptions C93_usual_materials.

(** At rest the quadratic form of K is twice the energy of linear elasticity, for both laws. *)
Theorem C93_linear_elasticity :
  forall m d v, solid d -> distinct_nodes d -> regular d -> field (length (positions d)) 3 v ->
    quadratic (length (positions d) * 3) (stiffness m d (positions d)) (concat v) = hooke_energy m d v.
Proof. exact rest_form. Qed.
Print Assumptions C93_linear_elasticity.

(** It is never negative. *)
Theorem C93_semidefinite :
  forall m d v, solid d -> distinct_nodes d -> regular d -> stable m -> field (length (positions d)) 3 v ->
    0 <= quadratic (length (positions d) * 3) (stiffness m d (positions d)) (concat v).
Proof. intros m d v Sd ND RG St Fv. rewrite rest_form by assumption. exact (hooke_energy_nonneg m d v St). Qed.
Print Assumptions C93_semidefinite.

(** K v is zero exactly when v strains no element; then, and only then, v^T K v is zero. *)
Theorem C93_kernel :
  forall m d v, solid d -> distinct_nodes d -> regular d -> stable m -> field (length (positions d)) 3 v ->
    let n := (length (positions d) * 3)%nat in let A := stiffness m d (positions d) in
    (annihilates n A (concat v) <-> strain_free d v) /\ (quadratic n A (concat v) = 0 <-> strain_free d v).
Proof.
  intros m d v Sd ND RG St Fv n A.
  assert (Q : quadratic n A (concat v) = 0 <-> strain_free d v).
  { unfold n, A. rewrite rest_form by assumption. apply hooke_energy_zero; assumption. }
  split; [|exact Q]. split.
  - intros H. apply Q. exact (annihilated_quadratic n A (concat v) H).
  - intros SF. exact (strain_free_annihilated m d v Sd ND RG Fv SF).
Qed.
Print Assumptions C93_kernel.

(** Translations and infinitesimal rotations are in the kernel, for any material and any type of elements... *)
Theorem C93_rigid_motions :
  forall m d v, solid d -> distinct_nodes d -> regular d -> rigid (positions d) v ->
    annihilates (length (positions d) * 3) (stiffness m d (positions d)) (concat v).
Proof.
  intros m d v Sd ND RG Rv. apply strain_free_annihilated; try assumption.
  - exact (rigid_field _ _ _ (proj2 (proj2 Sd)) Rv).
  - exact (rigid_strain_free d v Sd RG Rv).
Qed.
Print Assumptions C93_rigid_motions.

(** ... and the kernel holds nothing else for a mesh in one piece of tetrahedra with straight edges or of hexahedra with
    an open corner.  Missing: curved quadratic tetrahedra and hexahedra without an open corner. *)
Theorem C93_only_rigid_motions_partial :
  forall m d v, solid d -> distinct_nodes d -> regular d -> stable m ->
    sturdy d -> one_piece d ->
    field (length (positions d)) 3 v ->
    (annihilates (length (positions d) * 3) (stiffness m d (positions d)) (concat v) <-> rigid (positions d) v).
Proof.
  intros m d v Sd ND RG St SD OP Fv. split.
  - intros H. pose proof (proj1 (proj1 (C93_kernel m d v Sd ND RG St Fv)) H) as SF.
    apply (whole_rigid d v Sd); try assumption. intros row Hr. exact (sturdy_rigid d v row Sd RG SD Hr SF).
  - exact (C93_rigid_motions m d v Sd ND RG).
Qed.
Print Assumptions C93_only_rigid_motions_partial.

(** Holding three nodes that are not aligned makes the matrix of such a mesh positive definite. *)
Theorem C93_held_body_partial :
  forall m d v a b c, solid d -> distinct_nodes d -> regular d -> stable m ->
    sturdy d -> one_piece d ->
    field (length (positions d)) 3 v ->
    (a < length (positions d))%nat -> (b < length (positions d))%nat -> (c < length (positions d))%nat ->
    not_aligned (nth a (positions d) []) (nth b (positions d) []) (nth c (positions d) []) -> held [a; b; c] v ->
    (exists p, (p < length (positions d))%nat /\ nth p v [] <> [0; 0; 0]) ->
    0 < quadratic (length (positions d) * 3) (stiffness m d (positions d)) (concat v).
Proof.
  intros m d v a b c Sd ND RG St SD OP Fv Ha Hb Hc NA H (p & Hp & NZ).
  destruct (C93_semidefinite m d v Sd ND RG St Fv) as [Q|Q]; [exact Q|exfalso]. apply NZ.
  assert (SF : strain_free d v) by (apply (proj2 (C93_kernel m d v Sd ND RG St Fv)); symmetry; exact Q).
  apply (held_zero d v Sd) with (a := a) (b := b) (c := c); try assumption. intros row Hr. exact (sturdy_rigid d v row Sd RG SD Hr SF).
Qed.
Print Assumptions C93_held_body_partial.

(** For linear tetrahedra the hypotheses on the shape are met by every mesh: each element is straight, and three distinct
    nodes of an element are not aligned, so that two elements with a common face hold together. *)
Theorem C93_linear_tetrahedra :
  forall d, solid d -> regular d -> kind d = Tetrahedron_Linear ->
    sturdy d /\
    forall r1 r2 a b c, In r1 (connectivity d) -> NoDup [a; b; c] -> incl [a; b; c] r1 -> incl [a; b; c] r2 -> hold_together d r1 r2.
Proof.
  intros d Sd RG HT. split.
  - left. split; [rewrite HT; left; reflexivity|]. intros row Hr. eexists. eexists. apply linear_simplices_affine; [right; right; exact HT|].
    destruct (solid_row d row Sd Hr) as [Hl Hi]. split; [unfold nodes_of_element; rewrite map_length; exact Hl|].
    apply Forall_forall. intros r H. unfold nodes_of_element in H. apply in_map_iff in H. destruct H as (p & <- & Hp).
    apply (proj1 (Forall_forall _ _) (proj2 (proj2 (proj2 Sd)))). apply nth_In. exact (proj1 (Forall_forall _ _) Hi p Hp).
  - intros r1 r2 a b c H1 N I1 I2. exists a, b, c. split; [exact I1|]. split; [exact I2|].
    assert (P : forall p, In p [a; b; c] -> (p < length (positions d))%nat).
    { intros p Hp. apply (proj1 (Forall_forall _ _) (proj2 (solid_row d r1 Sd H1))). apply I1. exact Hp. }
    apply (nodes_not_aligned d a b c Sd); try (apply P; simpl; tauto). exact (face_not_aligned d Sd RG HT r1 a b c H1 N I1).
Qed.
Print Assumptions C93_linear_tetrahedra.

(** Parallelepipeds have open corners. *)
Theorem C93_parallelepipeds : forall d, solid d -> regular d -> kind d = Hexahedron_Linear -> straight d -> sturdy d.
Proof. intros d Sd RG HK HS. right. split; [exact HK|]. intros row Hr. destruct (HS row Hr) as (x0 & E & AF). exact (straight_open d row x0 E Sd RG HK Hr AF). Qed.
Print Assumptions C93_parallelepipeds.

(** Quadratic hexahedra are integrated with eight points, which is too few: whatever the shape of the element, and
    whichever three of its nodes are held, the stiffness of a single element annihilates a motion that is not zero. *)
Theorem C93_quadratic_hexahedron_refuted :
  forall m d row a b c, solid d -> distinct_nodes d -> regular d -> kind d = Hexahedron_Quadratic -> connectivity d = [row] ->
    length (positions d) = 20%nat -> (a < 20)%nat -> (b < 20)%nat -> (c < 20)%nat ->
    exists v, field 20 3 v /\ (exists p, (p < 20)%nat /\ nth p v [] <> [0; 0; 0]) /\ held [a; b; c] v /\
      annihilates 60 (stiffness m d (positions d)) (concat v).
Proof.
  intros m d row a b c Sd ND RG HK HC HN Ha Hb Hc.
  destruct (spurious_mode d row [a; b; c] Sd HK HC HN eq_refl) as (v & Fv & NZ & H & SF); [repeat apply Forall_cons; try assumption; apply Forall_nil|].
  exists v. split; [exact Fv|]. split; [exact NZ|]. split; [exact H|].
  pose proof (strain_free_annihilated m d v Sd ND RG ltac:(rewrite HN; exact Fv) SF) as A. rewrite HN in A. exact A.
Qed.
Print Assumptions C93_quadratic_hexahedron_refuted.

(** Away from rest this is lost: in any body compressed uniformly, however little, K has negative directions, whatever
    the law: every infinitesimal rotation is one. *)
Theorem C93_compressed_refuted :
  forall m d s w, solid d -> distinct_nodes d -> regular d -> connectivity d <> [] -> 0 < mu m -> 0 <= lambda m -> 0 < s < 1 ->
    length w = 3%nat -> w <> [0; 0; 0] ->
    quadratic (length (positions d) * 3) (stiffness m d (map (vscale s) (positions d))) (concat (map (vcross w) (positions d))) < 0.
Proof.
  intros m d s w Sd ND RG NE M L Hs Lw NZ. set (N := length (positions d)).
  assert (FX : field N 3 (positions d)) by apply Sd.
  assert (Fs : field N 3 (map (vscale s) (positions d))).
  { split; [rewrite map_length; reflexivity|]. apply Forall_forall. intros r Hr. apply in_map_iff in Hr. destruct Hr as (p & <- & Hp).
    unfold vscale. rewrite map_length. exact (proj1 (Forall_forall _ _) (proj2 FX) p Hp). }
  assert (EV : map (vcross w) (positions d) = map (fun p => vadd [0; 0; 0] (vcross w p)) (positions d)).
  { apply map_ext. intros p. unfold vcross, vadd. cbn [map2]. repeat (f_equal; try ring). }
  rewrite EV. assert (Fv : field N 3 (map (fun p => vadd [0; 0; 0] (vcross w p)) (positions d))).
  { apply (rigid_field N (positions d)); [exact FX|]. exists [0; 0; 0], w. repeat split. exact Lw. }
  unfold N in *. rewrite quadratic_form by assumption.
  set (W := nth 0 w 0 * nth 0 w 0 + nth 1 w 0 * nth 1 w 0 + nth 2 w 0 * nth 2 w 0).
  assert (PW : 0 < W).
  { destruct (length3 w Lw) as (x & y & z & ->). unfold W. cbn [nth]. destruct (Req_dec x 0) as [X|X]; [destruct (Req_dec y 0) as [Y|Y]; [destruct (Req_dec z 0) as [Z|Z]|]|].
    - exfalso. apply NZ. subst. reflexivity.
    - pose proof (Rsqr_pos_lt z Z) as P. pose proof (Rle_0_sqr x). pose proof (Rle_0_sqr y). unfold Rsqr in *. lra.
    - pose proof (Rsqr_pos_lt y Y) as P. pose proof (Rle_0_sqr x). pose proof (Rle_0_sqr z). unfold Rsqr in *. lra.
    - pose proof (Rsqr_pos_lt x X) as P. pose proof (Rle_0_sqr y). pose proof (Rle_0_sqr z). unfold Rsqr in *. lra. }
  pose proof (pressure_negative m s M L Hs) as PN.
  assert (NG : forall row q, In row (connectivity d) -> In q (gauss_nodes (kind d)) ->
    jacobian_determinant (the_node d row q) * weight (the_node d row q) *
    gauss_quadratic m (gradient (map (vscale s) (positions d)) row (the_node d row q)) (gradient (map (fun p => vadd [0; 0; 0] (vcross w p)) (positions d)) row (the_node d row q)) < 0).
  { intros row q Hr Hq. rewrite (rigid_gradient d row q [0; 0; 0] w Sd Hr Hq RG eq_refl).
    replace (gradient (map (vscale s) (positions d)) row (the_node d row q)) with (dilation s).
    2:{ symmetry. apply (gradient_affine d row q Sd Hr Hq _ [0; 0; 0]); [exact RG|]. intros p c Hp Hc.
        unfold entries at 1. rewrite (nth_indep _ [] (vscale s [])) by (rewrite map_length; exact Hp). rewrite (map_nth (vscale s)).
        unfold vscale. rewrite (nth_map0 (Rmult s)) by ring. unfold sum3, delta, entries.
        destruct c as [|[|[|]]]; try lia; cbn [nth Nat.eqb]; ring. }
    rewrite gauss_quadratic_spin by (first [apply Hs | exact Lw]). fold W. pose proof (node_weight d row q Hr Hq RG) as PWt.
    assert (pressure m s * W < 0) by nra. nra. }
  assert (Neg : forall (A : Type) (f : A -> R) l, (forall a, In a l -> f a < 0) -> Rsum (map f l) <= 0 /\ (l <> [] -> Rsum (map f l) < 0)).
  { intros A f l. induction l as [|a l IH]; intros H; [split; [cbn; lra|intros C; contradiction]|].
    destruct (IH (fun b Hb => H b (or_intror Hb))) as [Q _]. pose proof (H a (or_introl eq_refl)). cbn [map Rsum fold_right].
    change (fold_right Rplus 0 (map f l)) with (Rsum (map f l)). split; [|intros _]; lra. }
  apply Neg; [|exact NE]. intros row Hr. apply Neg.
  - intros g Hg. destruct (quad_in d row g Hg) as (q & Hq & ->). exact (NG row q Hr Hq).
  - unfold quad. rewrite get_gauss_nodes_alt. destruct Sd as (_ & CD & _). destruct (kind d); try discriminate CD; discriminate.
Qed.
Print Assumptions C93_compressed_refuted.

(** ** Witnesses *)
(** Two tetrahedra that share a face. *)
Definition two_tetrahedra : domain :=
  {| dim := 3; kind := Tetrahedron_Linear;
     positions := [ [0; 0; 0]; [1; 0; 0]; [0; 1; 0]; [0; 0; 1]; [1; 1; 1] ];
     connectivity := [ [0; 1; 2; 3]; [4; 1; 2; 3] ]%nat |}.
Example C93_two_tetrahedra :
  solid two_tetrahedra /\ distinct_nodes two_tetrahedra /\ regular two_tetrahedra /\ one_piece two_tetrahedra /\ stable (before_update NeoHookean 3000 (49 / 100)) /\
  not_aligned (nth 0 (positions two_tetrahedra) []) (nth 1 (positions two_tetrahedra) []) (nth 2 (positions two_tetrahedra) []).
Proof.
  split; [|split; [|split; [|split; [|split]]]].
  - split; [|split; [reflexivity|]].
    + repeat constructor; cbn; lia.
    + split; [reflexivity|]. repeat constructor.
  - repeat constructor; cbn; lia.
  - repeat constructor; intros H; cbv -[Rplus Rmult Rminus Ropp IZR] in H; lra.
  - assert (F : forall r1 r2, In r1 (connectivity two_tetrahedra) -> In r2 (connectivity two_tetrahedra) -> hold_together two_tetrahedra r1 r2).
    { intros r1 r2 H1 H2. exists 1%nat, 2%nat, 3%nat. cbn in H1, H2.
      split; [intros p Hp; cbn in Hp; destruct H1 as [<-|[<-|[]]]; cbn; tauto|]. split; [intros p Hp; cbn in Hp; destruct H2 as [<-|[<-|[]]]; cbn; tauto|].
      intros H. cbn in H. injection H. intros. lra. }
    split.
    + intros r1 r2 H1 H2. apply (linked_step _ r1 r2 r2); [exact H1|apply F; assumption|constructor; exact H2].
    + intros p Hp. cbn in Hp. destruct p as [|[|[|[|[|]]]]]; try lia.
      1-4: exists [0; 1; 2; 3]%nat; split; [left; reflexivity|cbn; tauto].
      exists [4; 1; 2; 3]%nat; split; [right; left; reflexivity|cbn; tauto].
  - apply C93_usual_materials; lra.
  - intros H. cbn in H. injection H. intros. lra.
Qed.

(** Two boxes side by side, and a quadratic box. *)
Definition two_boxes : domain :=
  {| dim := 3; kind := Hexahedron_Linear;
     positions := [ [0; 0; 0]; [2; 0; 0]; [2; 1; 0]; [0; 1; 0]; [0; 0; 3]; [2; 0; 3]; [2; 1; 3]; [0; 1; 3]; [3; 0; 0]; [3; 1; 0]; [3; 0; 3]; [3; 1; 3] ];
     connectivity := [ [0; 1; 2; 3; 4; 5; 6; 7]; [1; 8; 9; 2; 5; 10; 11; 6] ]%nat |}.
Example C93_two_boxes : solid two_boxes /\ distinct_nodes two_boxes /\ regular two_boxes /\ straight two_boxes /\ one_piece two_boxes.
Proof.
  split; [|split; [|split; [|split]]].
  - split; [|split; [reflexivity|]].
    + repeat constructor; cbn; lia.
    + split; [reflexivity|]. repeat constructor.
  - repeat constructor; cbn; lia.
  - pose proof g3_bounds as [P Q]. repeat constructor; intros H; cbn [fst] in H; rewrite ?neg_g3 in H; fold g3 in H;
    cbv -[Rplus Rmult Rminus Ropp Rdiv Rinv IZR g3] in H; field_simplify in H; nra.
  - intros row Hr. cbn in Hr. destruct Hr as [<-|[<-|[]]].
    + exists [1; 1 / 2; 3 / 2], [ [1; 0; 0]; [0; 1 / 2; 0]; [0; 0; 3 / 2] ]. split; [split; [reflexivity|repeat constructor]|]. split; [reflexivity|].
      intros xi Hxi. destruct xi as [|u [|v [|w [|]]]]; try discriminate. cbv -[Rplus Rmult Rminus Ropp Rdiv Rinv IZR]. repeat (f_equal; try field).
    + exists [5 / 2; 1 / 2; 3 / 2], [ [1 / 2; 0; 0]; [0; 1 / 2; 0]; [0; 0; 3 / 2] ]. split; [split; [reflexivity|repeat constructor]|]. split; [reflexivity|].
      intros xi Hxi. destruct xi as [|u [|v [|w [|]]]]; try discriminate. cbv -[Rplus Rmult Rminus Ropp Rdiv Rinv IZR]. repeat (f_equal; try field).
  - assert (F : forall r1 r2, In r1 (connectivity two_boxes) -> In r2 (connectivity two_boxes) -> hold_together two_boxes r1 r2).
    { intros r1 r2 H1 H2. exists 1%nat, 2%nat, 5%nat. cbn in H1, H2.
      split; [intros p Hp; cbn in Hp; destruct H1 as [<-|[<-|[]]]; cbn; tauto|]. split; [intros p Hp; cbn in Hp; destruct H2 as [<-|[<-|[]]]; cbn; tauto|].
      intros H. cbn in H. injection H. intros. lra. }
    split.
    + intros r1 r2 H1 H2. apply (linked_step _ r1 r2 r2); [exact H1|apply F; assumption|constructor; exact H2].
    + intros p Hp. cbn in Hp. do 8 (destruct p as [|p]; [exists [0; 1; 2; 3; 4; 5; 6; 7]%nat; split; [left; reflexivity|cbn; tauto]|]).
      exists [1; 8; 9; 2; 5; 10; 11; 6]%nat. split; [right; left; reflexivity|]. do 4 (destruct p as [|p]; [cbn; tauto|]). lia.
Qed.
Definition quadratic_box : domain :=
  {| dim := 3; kind := Hexahedron_Quadratic; positions := canonical_nodes Hexahedron_Quadratic; connectivity := [ seq 0 20 ] |}.
Example C93_quadratic_box : solid quadratic_box /\ distinct_nodes quadratic_box /\ length (positions quadratic_box) = 20%nat /\ regular quadratic_box.
Proof.
  split; [|split; [|split]].
  - split; [|split; [reflexivity|]].
    + repeat constructor; cbn; lia.
    + split; [reflexivity|]. repeat constructor.
  - constructor; [apply seq_NoDup|constructor].
  - reflexivity.
  - constructor; [|constructor]. apply Forall_forall. intros g Hg.
    assert (A : affine_element 3 Hexahedron_Quadratic (canonical_nodes Hexahedron_Quadratic) [0; 0; 0] Id3).
    { split; [split; [reflexivity|repeat constructor]|]. split; [reflexivity|]. intros xi Hxi. destruct xi as [|u [|v [|w [|]]]]; try discriminate.
      cbv -[Rplus Rmult Rminus Ropp Rdiv Rinv IZR]. repeat (f_equal; try field). }
    unfold local_volume. change (nodes_of_element quadratic_box (seq 0 20)) with (canonical_nodes Hexahedron_Quadratic). cbn [kind quadratic_box].
    rewrite (jacobian_affine 3 Hexahedron_Quadratic _ [0; 0; 0] Id3); [rewrite (proj1 rest_invariants); lra|split; [reflexivity|repeat constructor]|exact A|].
    cbn [CanonicalDimension]. exact (gauss_position_length3 Hexahedron_Quadratic g eq_refl Hg).
Qed.

(** A hexahedron that is not a parallelepiped: one node of the unit cube is pulled away. *)
Definition warped_box : domain :=
  {| dim := 3; kind := Hexahedron_Linear;
     positions := [ [0; 0; 0]; [1; 0; 0]; [1; 1; 0]; [0; 1; 0]; [0; 0; 1]; [1; 0; 1]; [2; 2; 2]; [0; 1; 1] ];
     connectivity := [ seq 0 8 ] |}.
Example C93_warped_box : solid warped_box /\ distinct_nodes warped_box /\ regular warped_box /\ sturdy warped_box /\ one_piece warped_box.
Proof.
  pose proof g3_bounds as [P Q].
  split; [|split; [|split; [|split]]].
  - split; [|split; [reflexivity|]].
    + repeat constructor; cbn; lia.
    + split; [reflexivity|]. repeat constructor.
  - constructor; [apply seq_NoDup|constructor].
  - repeat constructor; intros H; cbn [fst] in H; rewrite ?neg_g3 in H; fold g3 in H;
    cbv -[Rplus Rmult Rminus Ropp Rdiv Rinv IZR g3] in H; field_simplify in H; nra.
  - right. split; [reflexivity|]. intros row Hr. cbn in Hr. destruct Hr as [<-|[]]. exists false, false, false. cbv zeta.
    split; [|split]; intros s t H; unfold integration_point in H; cbn [negb] in H; rewrite ?neg_g3 in H; fold g3 in H;
    cbv -[Rplus Rmult Rminus Ropp Rdiv Rinv IZR g3] in H; injection H as H0 H1 H2.
    + assert (S : g3 * (s - 1) = 0) by lra. assert (T : g3 * (t - 1) = 0) by lra.
      apply Rmult_integral in S. apply Rmult_integral in T. lra.
    + assert (S : g3 * (s - 1) = 0) by lra. assert (T : g3 * (t - 1) = 0) by lra.
      apply Rmult_integral in S. apply Rmult_integral in T. lra.
    + assert (S : g3 * (s - 1) = 0) by lra. assert (T : g3 * (t - 1) = 0) by lra.
      apply Rmult_integral in S. apply Rmult_integral in T. lra.
  - split.
    + intros r1 r2 [<-|[]] [<-|[]]. constructor. left. reflexivity.
    + intros p Hp. exists (seq 0 8). split; [left; reflexivity|]. apply in_seq. cbn in Hp. lia.
Qed.
