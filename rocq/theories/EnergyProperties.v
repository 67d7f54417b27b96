(** C96: a body stores energy exactly when it is deformed. *)

From Coq Require Import ZArith Reals Lra Lia Psatz.
From Coquelicot Require Import Coquelicot.
From Coq Require Import List Arith Bool.
From Verif Require Import GridGeoModel ShapeModel ShapeSpec ShapeProofs ShapeFieldProofs ShapeGaussProofs LinAlg LinAlgProofs RectSpec NewtonLocalProofs BarycentricModel MappingSpec MappingProofs TensorModel TensorSpec
  MaterialModel MaterialSpec MaterialProofs MaterialProperties SparseModel SparseProofs Sums HyperModel HyperSpec HyperProofs HyperProofs2 HyperProofs3 HyperProofs4 HyperProperties
  SpectrumProofs StabilitySpec StabilityProofs StabilityProofs2 StabilityProofs3 StabilityProofs4 StabilityProofs5 StabilityProperties
  EnergySpec EnergyProofs EnergyProofs2 EnergyProofs3 EnergyProofs4 EnergyProofs5.
Import ListNotations.
Open Scope R_scope.

(** The reported energy is the integral over the body at rest, by quadrature, of the energy density of the deformation gradient. *)
Theorem C96_energy_formula :
  forall m d x, solid d -> regular d -> field (length (positions d)) 3 x -> getPotentialEnergy m d x = stored_energy m d x.
Proof. intros m d x Sd RG Fx. apply energy_sum; assumption. Qed.
Print Assumptions C96_energy_formula.

(** It is never negative ... *)
Theorem C96_never_negative :
  forall m d x, solid d -> regular d -> field (length (positions d)) 3 x -> resists m d x -> 0 <= getPotentialEnergy m d x.
Proof. intros m d x Sd RG Fx H. rewrite energy_sum by assumption. apply stored_nonneg; assumption. Qed.
Print Assumptions C96_never_negative.

(** ... and vanishes exactly when no length changes around any integration point, and then the elastic forces vanish too. *)
Theorem C96_zero_energy :
  forall m d x f, solid d -> regular d -> field (length (positions d)) 3 x -> field (length (positions d)) 3 f -> resists m d x ->
    (getPotentialEnergy m d x = 0 <-> unstretched d x) /\ (getPotentialEnergy m d x = 0 -> addForce m d x f = Some f).
Proof.
  intros m d x f Sd RG Fx Ff H. rewrite energy_sum by assumption. pose proof (stored_zero d Sd RG m x H) as Z. split; [exact Z|].
  intros E. apply unstretched_no_force; try assumption; [apply Z; exact E|]. intros K. unfold resists in H. rewrite K in H. apply H.
Qed.
Print Assumptions C96_zero_energy.

(** Moving the whole body rigidly stores no energy and creates no force, with any coefficients. *)
Theorem C96_rigid_motions :
  forall m d t Q f, solid d -> regular d -> length t = 3%nat -> rotation Q -> field (length (positions d)) 3 f ->
    getPotentialEnergy m d (placed t Q (positions d)) = 0 /\ addForce m d (placed t Q (positions d)) f = Some f.
Proof.
  intros m d t Q f Sd RG Lt (MQ & CQ & DQ) Ff. pose proof (placed_field d t Q Lt MQ) as FP.
  pose proof (placed_unstretched d Sd RG t Q Lt (conj MQ CQ)) as U.
  assert (NI : not_inverted d (placed t Q (positions d))) by (apply placed_not_inverted; try assumption; lra).
  rewrite energy_sum by assumption. split; [apply unstretched_no_energy|apply unstretched_no_force]; auto.
Qed.
Print Assumptions C96_rigid_motions.

(** Conversely a body made in one piece of linear tetrahedra, or of linear hexahedra that are firm, that is not inverted and has no energy has only been moved rigidly.
    Missing: linear hexahedra without plane face whose corners are all folded by a right angle; the statement is false for quadratic elements, see below. *)
Theorem C96_only_rigid_motions_partial :
  forall m d x, solid d -> regular d -> plain d -> one_piece d -> field (length (positions d)) 3 x -> resists m d x -> not_inverted d x ->
    getPotentialEnergy m d x = 0 -> rigidly_placed (positions d) x.
Proof.
  intros m d x Sd RG PL OP Fx H NI E. rewrite energy_sum in E by assumption. apply (stored_zero d Sd RG m x H) in E.
  apply whole_placed; try assumption. intros row Hr. exact (plain_element d x row Sd RG PL Hr E NI).
Qed.
Print Assumptions C96_only_rigid_motions_partial.

(** Once three nodes that are not aligned are held, every other displacement that inverts nothing costs energy. *)
Theorem C96_held_body_partial :
  forall m d x a b c, solid d -> regular d -> plain d -> one_piece d -> field (length (positions d)) 3 x -> resists m d x -> not_inverted d x ->
    (a < length (positions d))%nat -> (b < length (positions d))%nat -> (c < length (positions d))%nat ->
    not_aligned (nth a (positions d) []) (nth b (positions d) []) (nth c (positions d) []) ->
    (forall p, In p [a; b; c] -> nth p x [] = nth p (positions d) []) -> x <> positions d -> 0 < getPotentialEnergy m d x.
Proof.
  intros m d x a b c Sd RG PL OP Fx H NI Ha Hb Hc NA HH N. rewrite energy_sum by assumption.
  destruct (Rle_lt_or_eq_dec _ _ (stored_nonneg d Sd RG m x H)) as [L|E]; [exact L|exfalso]. symmetry in E. apply (stored_zero d Sd RG m x H) in E.
  apply N. apply (held_placement d x Sd) with a b c; try assumption. intros row Hr. exact (plain_element d x row Sd RG PL Hr E NI).
Qed.
Print Assumptions C96_held_body_partial.

(** The shapes covered: all linear tetrahedra and all parallelepipeds. *)
Theorem C96_plain_shapes :
  forall d, solid d -> kind d = Tetrahedron_Linear \/ (kind d = Hexahedron_Linear /\ straight d) -> plain d.
Proof.
  intros d Sd [H|[H S]]; [left; exact H|right]. split; [exact H|]. intros row Hr. destruct (S row Hr) as (x0 & E & A). exact (straight_firm d row x0 E Sd H Hr A).
Qed.
Print Assumptions C96_plain_shapes.

(** A Neo-Hookean body cannot be crushed flat with a bounded energy: below any energy B, every integration point keeps a share s of its volume. *)
Theorem C96_barrier :
  forall m d B, solid d -> regular d -> kind_of m = NeoHookean -> 0 < mu m -> 0 <= lambda m ->
    exists s, 0 < s /\ forall x, field (length (positions d)) 3 x -> not_inverted d x -> getPotentialEnergy m d x <= B ->
      forall row g, In row (connectivity d) -> In g (gauss_nodes (kind d)) -> s * Rabs (local_volume d row (fst g)) <= Rabs (local_volume (moved d x) row (fst g)).
Proof.
  intros m d B Sd RG K Hm Hl. destruct (barrier d Sd RG m B K Hm Hl) as (s & Ps & H). exists s. split; [exact Ps|]. intros x Fx NI E. apply H; try assumption.
  rewrite <- energy_sum by assumption. exact E.
Qed.
Print Assumptions C96_barrier.

(** With the Saint Venant-Kirchhoff law every body can be crushed flat with a finite energy ... *)
Theorem C96_flattened_refuted :
  forall m d, solid d -> regular d -> kind_of m = SaintVenantKirchhoff ->
    let x := placed [0; 0; 0] (diagonal 1 1 0) (positions d) in
    getPotentialEnergy m d x = (lambda m / 8 + mu m / 4) * rest_volume d /\
    forall row g, In row (connectivity d) -> In g (gauss_nodes (kind d)) -> local_volume (moved d x) row (fst g) = 0.
Proof.
  intros m d Sd RG K x. pose proof (placed_field d [0; 0; 0] _ eq_refl (diagonal_matrix 1 1 0)) as FP. fold x in FP. split.
  - rewrite energy_sum by assumption. unfold x. rewrite (placed_energy d Sd RG m [0; 0; 0] _ eq_refl (diagonal_matrix 1 1 0)), (svk_flat m K). reflexivity.
  - intros row g Hr Hg. unfold x. rewrite (placed_volume d Sd RG [0; 0; 0] _ row g eq_refl (diagonal_matrix 1 1 0) Hr Hg), diagonal_det. ring.
Qed.
Print Assumptions C96_flattened_refuted.

(** ... and its mirror image, with every element turned inside out, costs nothing and creates no force. *)
Theorem C96_mirror_refuted :
  forall m d f, solid d -> regular d -> kind_of m = SaintVenantKirchhoff -> field (length (positions d)) 3 f ->
    let x := placed [0; 0; 0] (diagonal 1 1 (-1)) (positions d) in
    getPotentialEnergy m d x = 0 /\ addForce m d x f = Some f /\
    forall row g, In row (connectivity d) -> In g (gauss_nodes (kind d)) -> local_volume (moved d x) row (fst g) = - local_volume d row (fst g).
Proof.
  intros m d f Sd RG K Ff x. pose proof (placed_field d [0; 0; 0] _ eq_refl (diagonal_matrix 1 1 (-1))) as FP. fold x in FP.
  pose proof (placed_unstretched d Sd RG [0; 0; 0] _ eq_refl mirror_isometry) as U. fold x in U.
  assert (NK : kind_of m = NeoHookean -> not_inverted d x) by (rewrite K; discriminate).
  split; [|split].
  - rewrite energy_sum by assumption. apply unstretched_no_energy; assumption.
  - apply unstretched_no_force; assumption.
  - intros row g Hr Hg. unfold x. rewrite (placed_volume d Sd RG [0; 0; 0] _ row g eq_refl (diagonal_matrix 1 1 (-1)) Hr Hg), diagonal_det. ring.
Qed.
Print Assumptions C96_mirror_refuted.

(** So the hypothesis that nothing is inverted cannot be removed from the theorem on held bodies: a tetrahedron held by three nodes can be turned inside out at no cost. *)
Definition one_tetrahedron : domain :=
  {| dim := 3; kind := Tetrahedron_Linear; positions := [ [0; 0; 0]; [1; 0; 0]; [0; 1; 0]; [0; 0; 1] ]; connectivity := [ [0; 1; 2; 3] ]%nat |}.
Lemma one_tetrahedron_solid : solid one_tetrahedron /\ regular one_tetrahedron /\ plain one_tetrahedron /\ one_piece one_tetrahedron.
Proof.
  split; [|split; [|split]].
  - split; [|split; [reflexivity|]].
    + repeat constructor; cbn; lia.
    + split; [reflexivity|]. repeat constructor.
  - repeat constructor; intros H; cbv -[Rplus Rmult Rminus Ropp IZR] in H; lra.
  - left. reflexivity.
  - split.
    + intros r1 r2 [<-|[]] [<-|[]]. constructor. left. reflexivity.
    + intros p Hp. exists [0; 1; 2; 3]%nat. split; [left; reflexivity|]. cbn in Hp. destruct p as [|[|[|[|]]]]; cbn; try tauto; lia.
Qed.
Theorem C96_held_mirror_refuted :
  exists d x a b c, solid d /\ regular d /\ plain d /\ one_piece d /\ field (length (positions d)) 3 x /\
    not_aligned (nth a (positions d) []) (nth b (positions d) []) (nth c (positions d) []) /\
    (forall p, In p [a; b; c] -> nth p x [] = nth p (positions d) []) /\ x <> positions d /\
    forall m f, kind_of m = SaintVenantKirchhoff -> field (length (positions d)) 3 f -> getPotentialEnergy m d x = 0 /\ addForce m d x f = Some f.
Proof.
  destruct one_tetrahedron_solid as (Sd & RG & PL & OP). exists one_tetrahedron, (placed [0; 0; 0] (diagonal 1 1 (-1)) (positions one_tetrahedron)), 0%nat, 1%nat, 2%nat.
  do 4 (split; [assumption|]). split; [apply placed_field; [reflexivity|apply diagonal_matrix]|]. split.
  { intros H. cbn in H. injection H. intros. lra. }
  split.
  { intros p Hp. cbn in Hp. destruct Hp as [<-|[<-|[<-|[]]]]; cbn; repeat (apply f_equal2; [ring|]); reflexivity. }
  split.
  { intros H. cbn in H. injection H. intros. lra. }
  intros m f K Ff. destruct (C96_mirror_refuted m one_tetrahedron f Sd RG K Ff) as (A & B & _). split; assumption.
Qed.
Print Assumptions C96_held_mirror_refuted.

(** With a negative lambda (a negative Poisson ratio) a Neo-Hookean body has no lowest energy: shrinking it gives back as much energy as one likes. *)
Theorem C96_negative_lambda_refuted :
  forall m d B, solid d -> regular d -> connectivity d <> [] -> kind_of m = NeoHookean -> 0 < mu m -> lambda m < 0 ->
    exists s, 0 < s < 1 /\ let x := placed [0; 0; 0] (diagonal s s s) (positions d) in not_inverted d x /\ getPotentialEnergy m d x < B.
Proof.
  intros m d B Sd RG N K Hm Hl. destruct (unbounded_below d Sd RG m B K Hm Hl N) as (s & Hs & E). exists s. split; [exact Hs|]. cbv zeta. split.
  - apply placed_not_inverted; [exact Sd|exact RG|reflexivity|apply diagonal_matrix|]. rewrite diagonal_det. repeat apply Rmult_lt_0_compat; apply Hs.
  - rewrite energy_sum; [exact E|exact Sd|exact RG|]. apply placed_field; [reflexivity|apply diagonal_matrix].
Qed.
Print Assumptions C96_negative_lambda_refuted.

(** Quadratic hexahedra: every box can be twisted by any angle th, continuously from rest, without energy, force or inversion, and this is not a rigid motion. *)
Theorem C96_quadratic_hexahedron_refuted :
  forall m a b c th f, a <> 0 -> b <> 0 -> c <> 0 ->
    let d := quadratic_brick a b c in let x := twisted_brick a b c th in
    field (length (positions d)) 3 f ->
    solid d /\ regular d /\ field (length (positions d)) 3 x /\ not_inverted d x /\ getPotentialEnergy m d x = 0 /\ addForce m d x f = Some f /\
    (th = 0 -> x = positions d) /\ (sin th <> 0 -> ~ rigidly_placed (positions d) x).
Proof.
  intros m a b c th f Ha Hb Hc d x Ff. pose proof (brick_solid a b c) as Sd. pose proof (brick_regular a b c Ha Hb Hc) as RG. fold d in Sd, RG.
  pose proof (twisted_field a b c th) as Fx. pose proof (twisted_unstretched a b c Ha Hb Hc th) as U. pose proof (twisted_upright a b c Ha Hb Hc th) as NI. fold d x in Fx, U, NI.
  split; [exact Sd|]. split; [exact RG|]. split; [exact Fx|]. split; [exact NI|]. split; [rewrite energy_sum by assumption; apply unstretched_no_energy; auto|].
  split; [apply unstretched_no_force; auto|]. split; [intros Z; unfold x; rewrite Z; apply twisted_start|]. exact (twisted_not_rigid a b c Ha Hb Hc th).
Qed.
Print Assumptions C96_quadratic_hexahedron_refuted.

(** Quadratic tetrahedra: there is one, straight at rest, with a second place without energy, force or inversion. *)
Theorem C96_quadratic_tetrahedron_refuted :
  forall m f, let d := wedge in let x := curled_wedge in
    field (length (positions d)) 3 f ->
    solid d /\ regular d /\ field (length (positions d)) 3 x /\ not_inverted d x /\ getPotentialEnergy m d x = 0 /\ addForce m d x f = Some f /\
    ~ rigidly_placed (positions d) x.
Proof.
  intros m f d x Ff. pose proof wedge_solid as Sd. pose proof wedge_regular as RG. pose proof curled_field as Fx. pose proof curled_unstretched as U. pose proof curled_upright as NI.
  split; [exact Sd|]. split; [exact RG|]. split; [exact Fx|]. split; [exact NI|]. split; [unfold d, x; rewrite energy_sum by assumption; apply unstretched_no_energy; auto|].
  split; [apply unstretched_no_force; auto|]. exact curled_not_rigid.
Qed.
Print Assumptions C96_quadratic_tetrahedron_refuted.

(** ** Bodies that meet the hypotheses *)
Lemma resisting_materials k E nu d x : 0 < E -> 0 <= nu < 1 / 2 -> (k = NeoHookean -> not_inverted d x) -> resists (before_update k E nu) d x.
Proof.
  intros HE Hn NI. unfold resists. cbn [kind_of before_update]. destruct k.
  - cbn [mu lambda before_update]. split; [apply Rdiv_lt_0_compat; lra|]. split; [|apply NI; reflexivity].
    apply Rdiv_le_0_compat; [nra|]. apply Rmult_lt_0_compat; lra.
  - apply C93_usual_materials; lra.
Qed.
(** Two tetrahedra pulled at a node. *)
Definition pulled : list (list R) := [ [0; 0; 0]; [1; 0; 0]; [0; 1; 0]; [0; 0; 1]; [1; 1; 2] ].
Example C96_two_tetrahedra :
  let d := two_tetrahedra in
  solid d /\ regular d /\ plain d /\ one_piece d /\ field (length (positions d)) 3 pulled /\ not_inverted d pulled /\ pulled <> positions d /\
  resists (before_update NeoHookean 3000 (49 / 100)) d pulled /\ resists (before_update SaintVenantKirchhoff 3000 (49 / 100)) d pulled /\
  0 < getPotentialEnergy (before_update NeoHookean 3000 (49 / 100)) d pulled.
Proof.
  destruct C93_two_tetrahedra as (Sd & _ & RG & OP & _ & NA). assert (PL : plain two_tetrahedra) by (left; reflexivity).
  assert (Fx : field (length (positions two_tetrahedra)) 3 pulled) by (split; [reflexivity|repeat constructor]).
  assert (NI : not_inverted two_tetrahedra pulled) by (repeat constructor; cbv -[Rplus Rmult Rminus Ropp IZR Rlt]; lra).
  assert (N : pulled <> positions two_tetrahedra) by (intros H; cbn in H; unfold pulled in H; injection H; intros; lra).
  assert (R1 : resists (before_update NeoHookean 3000 (49 / 100)) two_tetrahedra pulled) by (apply resisting_materials; [lra|lra|intros _; exact NI]).
  cbv zeta. repeat (split; [assumption|]). split; [apply resisting_materials; [lra|lra|discriminate]|].
  apply (C96_held_body_partial _ two_tetrahedra pulled 0 1 2); try assumption; try (cbn; lia).
  intros p Hp. cbn in Hp. destruct Hp as [<-|[<-|[<-|[]]]]; reflexivity.
Qed.
Example C96_two_boxes : solid two_boxes /\ regular two_boxes /\ plain two_boxes /\ one_piece two_boxes.
Proof. destruct C93_two_boxes as (Sd & _ & RG & ST & OP). repeat (split; [assumption|]). split; [|exact OP]. apply C96_plain_shapes; [exact Sd|]. right. split; [reflexivity|exact ST]. Qed.
(** A hexahedron without parallel faces. *)
Example C96_warped_box : solid warped_box /\ regular warped_box /\ plain warped_box /\ one_piece warped_box /\
  ~ (let p := integration_point warped_box (seq 0 8) in coplanar (p false false false) (p true false false) (p true true false) (p false true false)).
Proof.
  pose proof g3_bounds as [P Q]. destruct C93_warped_box as (Sd & _ & RG & _ & OP). split; [exact Sd|]. split; [exact RG|]. split; [|split; [exact OP|]].
  - assert (K : 0 < g3 * g3 * (g3 * g3) * (4096 + (1 - g3) * (5632 - 5120 * g3 + 1536 * (g3 * g3)))).
    { assert (0 < g3 * g3) by nra. assert (0 < 5632 - 5120 * g3 + 1536 * (g3 * g3)) by nra. assert (0 <= (1 - g3) * (5632 - 5120 * g3 + 1536 * (g3 * g3))) by (apply Rmult_le_pos; lra).
      apply Rmult_lt_0_compat; [apply Rmult_lt_0_compat; assumption|lra]. }
    right. split; [reflexivity|]. intros row Hr. cbn in Hr. destruct Hr as [<-|[]]. exists false, false, false. cbv zeta. right.
    split; [|split]; unfold unfolded, integration_point; cbn [negb]; rewrite ?neg_g3; fold g3; cbv -[Rplus Rmult Rminus Ropp Rdiv Rinv IZR g3 Rlt]; 
    split; field_simplify; lra.
  - cbv zeta. unfold coplanar, integration_point. rewrite ?neg_g3. fold g3. cbv -[Rplus Rmult Rminus Ropp Rdiv Rinv IZR g3]. intros H. field_simplify in H. assert (K : 0 < g3 * g3 * (g3 * g3) * (1 - g3)) by (assert (0 < g3 * g3) by nra; apply Rmult_lt_0_compat; [apply Rmult_lt_0_compat; assumption|lra]). lra.
Qed.
(** A rotation that is not the identity. *)
Example C96_quarter_turn : rotation [[0; 1; 0]; [- (1); 0; 0]; [0; 0; 1]].
Proof. apply plane_turn. ring. Qed.
