(** States of quadratic elements without energy (C96). *)

From Coq Require Import ZArith Reals Lra Lia Psatz.
From Coquelicot Require Import Coquelicot.
From Coq Require Import List Arith Bool.
From Verif Require Import GridGeoModel ShapeModel ShapeSpec ShapeProofs ShapeFieldProofs ShapeGaussProofs LinAlg LinAlgProofs RectSpec NewtonLocalProofs BarycentricModel MappingSpec MappingProofs TensorModel TensorSpec
  MaterialModel MaterialSpec MaterialProofs MaterialProperties SparseModel SparseProofs Sums HyperModel HyperSpec HyperProofs HyperProofs2 HyperProofs3 HyperProofs4 HyperProperties
  SpectrumProofs StabilitySpec StabilityProofs StabilityProofs2 StabilityProofs3 StabilityProofs4 StabilityProofs5 EnergySpec EnergyProofs EnergyProofs2.
Import ListNotations.
Open Scope R_scope.

(** ** Quadratic boxes *)
Section Brick.
Context (a b c : R).
Hypothesis Ha : a <> 0.
Hypothesis Hb : b <> 0.
Hypothesis Hc : c <> 0.
Lemma brick_solid : solid (quadratic_brick a b c).
Proof.
  split; [|split; [reflexivity|]].
  - repeat constructor; cbn; lia.
  - split; [reflexivity|]. cbn [positions quadratic_brick]. apply Forall_forall. intros r Hr. apply in_map_iff in Hr. destruct Hr as (p & <- & _). reflexivity.
Qed.
Lemma brick_nodes : nodes_of_element (quadratic_brick a b c) (seq 0 20) = positions (quadratic_brick a b c).
Proof. reflexivity. Qed.
Lemma brick_jacobian u v w : jacobian 3 Hexahedron_Quadratic (positions (quadratic_brick a b c)) [u; v; w] = diagonal a b c.
Proof. unfold diagonal. cbv -[Rplus Rmult Rminus Ropp Rdiv Rinv IZR]. repeat (f_equal; try field). Qed.
Lemma twisted_jacobian th u v w : jacobian 3 Hexahedron_Quadratic (twisted_brick a b c th) [u; v; w] =
  [[a * cos th + b * (3 / 2) * sin th * (v * v - 1 / 3); b * (3 / 2) * sin th * (2 * u * v); 0];
   [- (a * (3 / 2) * sin th * (2 * u * v)); b * cos th - a * (3 / 2) * sin th * (u * u - 1 / 3); 0]; [0; 0; c]].
Proof.
  unfold twisted_brick. generalize (cos th) (sin th). intros C S. cbv -[Rplus Rmult Rminus Ropp Rdiv Rinv IZR]. repeat (f_equal; try field).
Qed.
Lemma brick_regular : regular (quadratic_brick a b c).
Proof.
  constructor; [|constructor]. apply Forall_forall. intros g Hg. unfold local_volume. rewrite brick_nodes.
  pose proof (gauss_position_length3 Hexahedron_Quadratic g eq_refl Hg) as L. destruct (length3 _ L) as (u & v & w & ->). cbn [kind quadratic_brick].
  rewrite brick_jacobian. unfold diagonal, det. 
  replace (a * (b * c - 0 * 0) - 0 * (0 * c - 0 * 0) + 0 * (0 * 0 - b * 0)) with (a * b * c) by ring. repeat apply Rmult_integral_contrapositive_currified; assumption.
Qed.
Lemma gauss_square g : In g Hexahedron_Quadratic_gauss -> exists u v w, fst g = [u; v; w] /\ u * u = 1 / 3 /\ v * v = 1 / 3.
Proof.
  assert (Q : (1 / sqrt 3) * (1 / sqrt 3) = 1 / 3).
  { assert (0 < sqrt 3) by (apply sqrt_lt_R0; lra). replace ((1 / sqrt 3) * (1 / sqrt 3)) with (1 / (sqrt 3 * sqrt 3)) by (field; lra). rewrite sqrt_sqrt; lra. }
  assert (Q' : (-1 / sqrt 3) * (-1 / sqrt 3) = 1 / 3) by (rewrite <- Q; unfold Rdiv; ring).
  intros H. cbn in H. repeat (destruct H as [<-|H]; [eexists _, _, _; split; [reflexivity|]; split; assumption|]). contradiction.
Qed.
Lemma twisted_gradient th g : In g Hexahedron_Quadratic_gauss ->
  deformation_gradient (quadratic_brick a b c) (twisted_brick a b c th) (seq 0 20) (fst g) =
  (let p := 3 * nth 0 (fst g) 0 * nth 1 (fst g) 0 in [[cos th; p * sin th; 0]; [- (p * sin th); cos th; 0]; [0; 0; 1]]).
Proof.
  intros H. destruct (gauss_square g H) as (u & v & w & -> & Hu & Hv). unfold deformation_gradient. rewrite brick_nodes. cbn [kind quadratic_brick].
  change (gather (twisted_brick a b c th) (seq 0 20)) with (twisted_brick a b c th). rewrite brick_jacobian, twisted_jacobian, Hu, Hv. cbn [nth]. cbv zeta.
  unfold diagonal, inverse, det, product, of_entries, entries, sum3. cbn [nth map seq].
  repeat (apply f_equal2; [|]); try reflexivity; field; repeat split; assumption.
Qed.
Lemma gauss_sign g : In g Hexahedron_Quadratic_gauss -> let p := 3 * nth 0 (fst g) 0 * nth 1 (fst g) 0 in p * p = 1.
Proof. intros H. destruct (gauss_square g H) as (u & v & w & -> & Hu & Hv). cbn [nth]. cbv zeta. replace (3 * u * v * (3 * u * v)) with (9 * (u * u) * (v * v)) by ring. rewrite Hu, Hv. field. Qed.
Lemma plane_turn C S : C * C + S * S = 1 -> rotation [[C; S; 0]; [- S; C; 0]; [0; 0; 1]].
Proof.
  intros H. split; [split; [reflexivity|repeat constructor]|]. split.
  - apply cauchy_green_is_Id. intros i j Hi Hj. unfold sum3, entries, delta.
    destruct i as [|[|[|]]]; try lia; destruct j as [|[|[|]]]; try lia; cbn [nth Nat.eqb]; try ring; rewrite <- H; ring.
  - unfold det. transitivity (C * C + S * S); [ring|exact H].
Qed.
Lemma twisted_rotation th g : In g Hexahedron_Quadratic_gauss -> rotation (deformation_gradient (quadratic_brick a b c) (twisted_brick a b c th) (seq 0 20) (fst g)).
Proof.
  intros H. rewrite twisted_gradient by exact H. pose proof (gauss_sign g H) as P. cbv zeta in *. apply plane_turn.
  set (p := 3 * nth 0 (fst g) 0 * nth 1 (fst g) 0) in *. replace (p * sin th * (p * sin th)) with (p * p * (sin th * sin th)) by ring. rewrite P.
  pose proof (sin2_cos2 th) as T. unfold Rsqr in T. lra.
Qed.
Lemma twisted_unstretched th : unstretched (quadratic_brick a b c) (twisted_brick a b c th).
Proof. intros row g [<-|[]] Hg. apply (twisted_rotation th g Hg). Qed.
Lemma twisted_field th : field (length (positions (quadratic_brick a b c))) 3 (twisted_brick a b c th).
Proof. split; [reflexivity|]. apply Forall_forall. intros r Hr. apply in_map_iff in Hr. destruct Hr as (p & <- & _). reflexivity. Qed.
Lemma rotation_not_inverted d x : solid d -> regular d ->
  (forall row g, In row (connectivity d) -> In g (gauss_nodes (kind d)) -> 0 < det (deformation_gradient d x row (fst g))) -> not_inverted d x.
Proof.
  intros Sd RG H. apply Forall_forall. intros row Hr. apply Forall_forall. intros q Hq.
  destruct (solid_row d row Sd Hr) as [Hl _]. pose proof (proj1 (Forall_forall _ _) (proj1 (Forall_forall _ _) RG row Hr) q Hq) as N.
  pose proof (gradient_det d row q (proj1 (proj2 Sd)) Hl N x) as D. pose proof (node_gradient d Sd x row q Hr Hq) as G. unfold gradient in G. rewrite Hl in G. rewrite G in D.
  cbv beta in N. pose proof (H row q Hr Hq) as P. unfold local_volume in *. change (jacobian 3 (kind d) (nodes_of_element (moved d x) row) (fst q)) with (jacobian 3 (kind d) (gather x row) (fst q)).
  pose proof (Rsqr_pos_lt _ N) as S. unfold Rsqr in S. cbn [kind moved]. 
  assert (E : det (jacobian 3 (kind d) (nodes_of_element (moved d x) row) (fst q)) = det (deformation_gradient d x row (fst q)) * det (jacobian 3 (kind d) (nodes_of_element d row) (fst q))) by (symmetry; exact D).
  cbn [kind moved] in *. rewrite E. nra.
Qed.
Lemma twisted_upright th : not_inverted (quadratic_brick a b c) (twisted_brick a b c th).
Proof.
  apply rotation_not_inverted; [apply brick_solid|apply brick_regular|]. intros row g [<-|[]] Hg. rewrite (proj2 (proj2 (twisted_rotation th g Hg))). lra.
Qed.
Lemma twisted_start : twisted_brick a b c 0 = positions (quadratic_brick a b c).
Proof. unfold twisted_brick, quadratic_brick, positions. rewrite cos_0, sin_0. apply map_ext. intros p. cbv zeta. repeat (apply f_equal2; [ring|]). reflexivity. Qed.
Lemma twisted_not_rigid th : sin th <> 0 -> ~ rigidly_placed (positions (quadratic_brick a b c)) (twisted_brick a b c th).
Proof.
  intros N (t & Q & Lt & RQ & E).
  assert (G : forall g, In g Hexahedron_Quadratic_gauss -> deformation_gradient (quadratic_brick a b c) (twisted_brick a b c th) (seq 0 20) (fst g) = Q).
  { intros g Hg. rewrite E. apply placed_gradient; [apply brick_solid|apply brick_regular|exact Lt|apply RQ|left; reflexivity|exact Hg]. }
  pose proof (G _ (or_introl eq_refl)) as G1. pose proof (G _ (or_intror (or_introl eq_refl))) as G2. rewrite <- G2 in G1. clear G G2 E.
  rewrite !twisted_gradient in G1 by (cbn; tauto). cbn [fst nth] in G1. cbv zeta in G1. injection G1. intros H _. 
  assert (Q3 : (1 / sqrt 3) * (1 / sqrt 3) = 1 / 3).
  { assert (0 < sqrt 3) by (apply sqrt_lt_R0; lra). replace ((1 / sqrt 3) * (1 / sqrt 3)) with (1 / (sqrt 3 * sqrt 3)) by (field; lra). rewrite sqrt_sqrt; lra. }
  replace (3 * (-1 / sqrt 3) * (-1 / sqrt 3)) with (3 * ((1 / sqrt 3) * (1 / sqrt 3))) in H by (unfold Rdiv; ring).
  replace (3 * (1 / sqrt 3) * (-1 / sqrt 3)) with (- (3 * ((1 / sqrt 3) * (1 / sqrt 3)))) in H by (unfold Rdiv; ring). rewrite Q3 in H. apply N. lra.
Qed.
End Brick.

(** ** A quadratic tetrahedron *)
Lemma wedge_solid : solid wedge.
Proof.
  split; [|split; [reflexivity|]].
  - repeat constructor; cbn; lia.
  - split; [reflexivity|]. cbn [positions wedge]. apply Forall_forall. intros r Hr. apply in_map_iff in Hr. destruct Hr as (p & <- & _). reflexivity.
Qed.
Lemma wedge_nodes : nodes_of_element wedge (seq 0 10) = positions wedge.
Proof. reflexivity. Qed.
Lemma wedge_jacobian u v w : jacobian 3 Tetrahedron_Quadratic (positions wedge) [u; v; w] = [[1; 0; 0]; [0; 1; 1]; [0; -1; 1]].
Proof. cbv -[Rplus Rmult Rminus Ropp Rdiv Rinv IZR]. repeat (f_equal; try field). Qed.
Lemma curled_jacobian u v w : jacobian 3 Tetrahedron_Quadratic curled_wedge [u; v; w] =
  (let s := hi - lo in let p := (u - lo) / s in let q := (v + w - 2 * lo) / s in
   [[1 - p - q; q - p; q - p]; [p - q; 1 - p - q; 1 - p - q]; [0; -1; 1]]).
Proof.
  assert (N : hi - lo <> 0) by (unfold hi, lo; lra). unfold curled_wedge. fold lo hi. cbv zeta. generalize dependent hi. generalize lo. intros l h N.
  cbv -[Rplus Rmult Rminus Ropp Rdiv Rinv IZR]. repeat (f_equal; try (field; exact N)).
Qed.
Lemma wedge_regular : regular wedge.
Proof.
  constructor; [|constructor]. apply Forall_forall. intros g Hg. unfold local_volume. rewrite wedge_nodes.
  pose proof (gauss_position_length3 Tetrahedron_Quadratic g eq_refl Hg) as L. destruct (length3 _ L) as (u & v & w & ->). cbn [kind wedge].
  rewrite wedge_jacobian. unfold det. lra.
Qed.
Lemma curled_gradient u v w : deformation_gradient wedge curled_wedge (seq 0 10) [u; v; w] =
  (let s := hi - lo in let p := (u - lo) / s in let q := (v + w - 2 * lo) / s in [[1 - p - q; q - p; 0]; [- (q - p); 1 - p - q; 0]; [0; 0; 1]]).
Proof.
  unfold deformation_gradient. rewrite wedge_nodes. cbn [kind wedge]. change (gather curled_wedge (seq 0 10)) with curled_wedge. rewrite wedge_jacobian, curled_jacobian.
  cbv zeta. unfold inverse, det, product, of_entries, entries, sum3. cbn [nth map seq]. generalize ((u - lo) / (hi - lo)) ((v + w - 2 * lo) / (hi - lo)). intros p q.
  repeat (apply f_equal2; [|]); try reflexivity; field.
Qed.
Lemma curled_rotation g : In g Tetrahedron_Quadratic_gauss -> rotation (deformation_gradient wedge curled_wedge (seq 0 10) (fst g)).
Proof.
  assert (N : hi - lo <> 0) by (unfold hi, lo; lra). intros H. cbn in H. fold lo hi in H.
  repeat (destruct H as [<-|H]; [cbn [fst]; rewrite curled_gradient; cbv zeta; apply plane_turn; field; exact N|]). contradiction.
Qed.
Lemma curled_unstretched : unstretched wedge curled_wedge.
Proof. intros row g [<-|[]] Hg. apply (curled_rotation g Hg). Qed.
Lemma curled_field : field (length (positions wedge)) 3 curled_wedge.
Proof. split; [reflexivity|]. apply Forall_forall. intros r Hr. apply in_map_iff in Hr. destruct Hr as (p & <- & _). reflexivity. Qed.
Lemma curled_upright : not_inverted wedge curled_wedge.
Proof.
  apply rotation_not_inverted; [apply wedge_solid|apply wedge_regular|]. intros row g [<-|[]] Hg. rewrite (proj2 (proj2 (curled_rotation g Hg))). lra.
Qed.
Lemma curled_not_rigid : ~ rigidly_placed (positions wedge) curled_wedge.
Proof.
  intros (t & Q & Lt & RQ & E).
  assert (G : forall g, In g Tetrahedron_Quadratic_gauss -> deformation_gradient wedge curled_wedge (seq 0 10) (fst g) = Q).
  { intros g Hg. rewrite E. apply placed_gradient; [apply wedge_solid|apply wedge_regular|exact Lt|apply RQ|left; reflexivity|exact Hg]. }
  pose proof (G _ (or_introl eq_refl)) as G1. pose proof (G _ (or_intror (or_introl eq_refl))) as G2. rewrite <- G2 in G1. clear G G2 E.
  cbn [fst] in G1. rewrite !curled_gradient in G1. cbv zeta in G1. injection G1. intros _ _ H _. unfold hi, lo in H. lra.
Qed.
