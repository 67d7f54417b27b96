(** Proofs for C108: corotational force fields in other units. *)

From Coq Require Import ZArith Reals Lra Lia.
From Coquelicot Require Import Coquelicot.
From Coq Require Import List Arith Bool.
From Flocq Require Import Core.Raux.
From Verif Require Import GridGeoModel ShapeModel ShapeSpec ShapeProofs ShapeFieldProofs LinAlg LinAlgProofs RectModel RectProofs BarycentricModel MappingSpec MappingProofs TensorModel TensorSpec
  MaterialModel MaterialSpec MaterialProofs SparseModel SparseProofs Sums TractionModel TractionProofs HyperModel HyperSpec HyperProofs CorotModel CorotSpec UnitsSpec UnitsProofs UnitsProofs2 UnitsSpec2.
Import ListNotations.
Open Scope R_scope.
Notation scaled := UnitsSpec.scaled.
Notation addForce := CorotModel.addForce.
Notation addDForce := CorotModel.addDForce.
Notation state := CorotModel.state.

(** ** Vectors and matrices *)
Lemma vdot_left k : forall u v, vdot (vscale k u) v = k * vdot u v.
Proof.
  unfold vdot, vscale. induction u as [|x u IH]; intros [|y v]; cbn [map map2]; try (cbn; ring). change (Rsum (?x :: ?l)) with (x + Rsum l). rewrite IH. ring.
Qed.
Lemma vdot_right k : forall u v, vdot u (vscale k v) = k * vdot u v.
Proof.
  unfold vdot, vscale. induction u as [|x u IH]; intros [|y v]; cbn [map map2]; try (cbn; ring). change (Rsum (?x :: ?l)) with (x + Rsum l). rewrite IH. ring.
Qed.
Lemma vscale_vscale k l v : vscale k (vscale l v) = vscale (k * l) v.
Proof. unfold vscale. rewrite map_map. apply map_ext. intros x. ring. Qed.
Lemma scaled_scaled k l M : scaled k (scaled l M) = scaled (k * l) M.
Proof. unfold scaled. rewrite map_map. apply map_ext. intros x. apply vscale_vscale. Qed.
Lemma column_scaled k M j : column (scaled k M) j = vscale k (column M j).
Proof. unfold column, scaled, vscale at 2. rewrite !map_map. apply map_ext. intros r. apply vscale_nth. Qed.
Lemma transpose_scaled n k M : transpose n (scaled k M) = scaled k (transpose n M).
Proof. unfold transpose. unfold scaled at 2. rewrite map_map. apply map_ext. intros j. apply column_scaled. Qed.
Lemma matvec_left k M v : matvec (scaled k M) v = vscale k (matvec M v).
Proof. unfold matvec, scaled. unfold vscale at 2. rewrite !map_map. apply map_ext. intros r. apply vdot_left. Qed.
Lemma matvec_right k M v : matvec M (vscale k v) = vscale k (matvec M v).
Proof. unfold matvec. unfold vscale at 2. rewrite !map_map. apply map_ext. intros r. apply vdot_right. Qed.
Lemma matmul_left n k A B : matmul n (scaled k A) B = scaled k (matmul n A B).
Proof. unfold matmul, scaled. rewrite !map_map. apply map_ext. intros r. unfold vscale at 2. rewrite map_map. apply map_ext. intros j. apply vdot_left. Qed.
Lemma matmul_right n k A B : matmul n A (scaled k B) = scaled k (matmul n A B).
Proof. unfold matmul. unfold scaled at 2. rewrite !map_map. apply map_ext. intros r. unfold vscale. rewrite map_map. apply map_ext. intros j. rewrite column_scaled. apply vdot_right. Qed.
Lemma madd_scaled k : forall A B, madd (scaled k A) (scaled k B) = scaled k (madd A B).
Proof. unfold madd, scaled. induction A as [|x A IH]; intros [|y B]; cbn [map map2]; try reflexivity. rewrite IH, vscale_vadd. reflexivity. Qed.
Lemma e_scaled k M i j : e (scaled k M) i j = k * e M i j.
Proof. exact (scaled_entries k M i j). Qed.

(** ** Frames *)
Lemma normalized_scaled k v : 0 < k -> normalized (vscale k v) = normalized v.
Proof.
  intros Hk. assert (S : squaredNorm (vscale k v) = k * k * squaredNorm v) by (unfold squaredNorm; rewrite vdot_left, vdot_right; ring).
  unfold normalized. rewrite S, norm_vscale by lra. destruct (Rlt_bool_spec 0 (squaredNorm v)) as [P|P].
  - destruct (Rlt_bool_spec 0 (k * k * squaredNorm v)) as [_|Q]; [|exfalso; assert (0 < k * k) by nra; nra]. unfold vscale. rewrite map_map. apply map_ext. intros x. field.
    split; [|lra]. intros Z. unfold norm in Z. apply sqrt_eq_0 in Z; lra.
  - destruct (Rlt_bool_spec 0 (k * k * squaredNorm v)) as [Q|_]; [exfalso; assert (0 < k * k) by nra; nra|].
    assert (Z : norm v = 0) by (unfold norm; apply sqrt_neg_0; exact P). apply (nth_ext _ _ 0 0); [unfold vscale; apply map_length|]. intros i _. rewrite vscale_nth, (norm_zero v Z). ring.
Qed.
Lemma world_scaled k e nodes xi : world_coordinates 3 e (scaled k nodes) xi = vscale k (world_coordinates 3 e nodes xi).
Proof.
  unfold world_coordinates, interpolate. unfold vscale. rewrite map_map. apply map_ext. intros c. generalize (L e xi). induction nodes as [|x nodes IH]; intros [|l ls]; cbn [scaled map map2]; try (cbn; ring).
  change (Rsum (?x :: ?l)) with (x + Rsum l). unfold scaled in IH. rewrite IH, vscale_nth. ring.
Qed.
Lemma frame_scaled k t nodes : 0 < k -> frame t (scaled k nodes) = frame t nodes.
Proof.
  intros Hk. destruct t; cbn [frame].
  - unfold tetrahedron_frame. rewrite !scaled_row, <- !vscale_vminus, !normalized_scaled by exact Hk. reflexivity.
  - unfold hexahedron_frame. cbv zeta. rewrite !world_scaled, <- !vscale_vminus, !normalized_scaled by exact Hk. reflexivity.
Qed.

(** ** Stiffness matrices *)
Section Corot.
Context (a b : R) (m : mesh).
Hypothesis Ha : 0 < a.
Hypothesis VM : valid_mesh m.
Let m' := mesh_in_unit a m.
Definition node_in_unit (g : gauss_node) : gauss_node :=
  {| weight := weight g; jacobian_determinant := a * a * a * jacobian_determinant g; dN_dx := scaled (/ a) (dN_dx g) |}.

Lemma nodes_scaled t nodes : Forall (fun g => det (jacobian 3 (kind_of_elements t) nodes (fst g)) <> 0) (integration_points t) ->
  CorotModel.gauss_nodes_of t (scaled a nodes) = map node_in_unit (CorotModel.gauss_nodes_of t nodes).
Proof.
  intros F. unfold CorotModel.gauss_nodes_of. rewrite map_map. apply map_ext_in. intros g Hg. cbv zeta. rewrite jacobian_scaled. pose proof (proj1 (Forall_forall _ _) F g Hg) as NZ. cbv beta in NZ.
  assert (MJ : matrix3 (jacobian 3 (kind_of_elements t) nodes (fst g))) by (unfold jacobian; destruct t; (split; [reflexivity|repeat constructor])).
  rewrite det_scaled by exact MJ. rewrite inverse_scaled by (first [assumption|lra]). unfold node_in_unit. cbn [weight jacobian_determinant dN_dx]. f_equal. rewrite transpose_scaled. unfold scaled at 2. rewrite map_map. apply map_ext. intros v. apply matvec_left.
Qed.
Lemma Bi_scaled k v : Bi (vscale k v) = scaled k (Bi v).
Proof. unfold Bi. rewrite !vscale_nth. cbv zeta. cbn [scaled map vscale]. unfold vscale. cbn [map]. repeat (apply f_equal2; [repeat (apply f_equal2; [ring|]); reflexivity|]); reflexivity. Qed.
Lemma hooke_scaled E nu : hooke (b * E) nu = scaled b (hooke E nu).
Proof. unfold hooke. cbv zeta. unfold scaled, vscale. cbn [map]. repeat (apply f_equal2; [repeat (apply f_equal2; [unfold Rdiv; ring|]); reflexivity|]); reflexivity. Qed.
Lemma gauss_scaled E nu i j g : gauss_stiffness (hooke (b * E) nu) i j (node_in_unit g) = scaled (b * a) (gauss_stiffness (hooke E nu) i j g).
Proof.
  unfold gauss_stiffness. cbv zeta. cbn [node_in_unit weight jacobian_determinant dN_dx]. change mscale with scaled. rewrite !scaled_row, !Bi_scaled, hooke_scaled, transpose_scaled, !matmul_left, !matmul_right, !matmul_left, !scaled_scaled. f_equal. field. lra.
Qed.
Lemma stiffness_scaled E nu n gs : element_stiffness (hooke (b * E) nu) n (map node_in_unit gs) = scaled (b * a) (element_stiffness (hooke E nu) n gs).
Proof.
  assert (H : forall i j (gs : list gauss_node) M, fold_left (fun K g => madd K (gauss_stiffness (hooke (b * E) nu) i j g)) (map node_in_unit gs) (scaled (b * a) M) =
    scaled (b * a) (fold_left (fun K g => madd K (gauss_stiffness (hooke E nu) i j g)) gs M)).
  { intros i j l. induction l as [|g l IH]; intros M; [reflexivity|]. cbn [map fold_left]. rewrite gauss_scaled, madd_scaled. apply IH. }
  assert (Z : scaled (b * a) (repeat (repeat 0 3) 3) = repeat (repeat 0 3) 3) by (cbn; unfold vscale; cbn [map]; rewrite Rmult_0_r; reflexivity).
  unfold element_stiffness. unfold scaled at 1. rewrite map_map. apply map_ext. intros r. unfold vscale. rewrite map_map. apply map_ext. intros c. destruct (Nat.leb _ _); [|ring]. rewrite <- Z at 1. rewrite H. apply e_scaled.
Qed.
Lemma selfadjoint_scaled k l K U : selfadjoint_times (scaled k K) (vscale l U) = vscale (k * l) (selfadjoint_times K U).
Proof.
  unfold selfadjoint_times. assert (EL : length (vscale l U) = length U) by apply map_length. rewrite EL. unfold vscale at 2. rewrite map_map. apply map_ext. intros r. rewrite <- Rsum_scal_l. apply Rsum_ext. intros c _.
  rewrite !e_scaled, vscale_nth. destruct (Nat.leb r c); ring.
Qed.
Lemma flat_scaled (A : Type) k (f : A -> list R) l : vscale k (flat_map f l) = flat_map (fun x => vscale k (f x)) l.
Proof. unfold vscale. induction l as [|x l IH]; [reflexivity|]. cbn [flat_map]. rewrite map_app, IH. reflexivity. Qed.
Lemma displacement_scaled R0 R1 y x row : local_displacement R0 R1 (scaled a y) (scaled a x) row = vscale a (local_displacement R0 R1 y x row).
Proof. unfold local_displacement. rewrite flat_scaled. apply flat_map_ext. intros n. rewrite !scaled_row, !matvec_right, <- vscale_vminus. reflexivity. Qed.
Lemma local_scaled R1 v row : local_increment R1 (scaled a v) row = vscale a (local_increment R1 v row).
Proof. unfold local_increment. rewrite flat_scaled. apply flat_map_ext. intros n. rewrite !scaled_row, matvec_right. reflexivity. Qed.
Lemma scatter_scaled R1 k F row : scatter R1 (vscale k F) row = map (fun p => (fst p, vscale k (snd p))) (scatter R1 F row).
Proof.
  unfold scatter. rewrite !map2_combine, map_map. apply map_ext. intros [n i]. cbn [fst snd]. f_equal. rewrite !vscale_nth. change [k * ?x; k * ?y; k * ?z] with (vscale k [x; y; z]). rewrite matvec_right. unfold vscale. rewrite !map_map. apply map_ext. intros z. ring.
Qed.
Lemma over_elements (A B C : Type) (f : list (list R) -> list (list R)) (g : B -> B) (h h' : A -> list (list R) * C -> list B) :
  (forall row K r, h' row (f K, r) = map g (h row (K, r))) -> forall rows Ks rs, concat (map2 h' rows (combine (map f Ks) rs)) = map g (concat (map2 h rows (combine Ks rs))).
Proof.
  intros H. induction rows as [|row rows IH]; intros [|K Ks] [|r rs]; cbn [map combine map2 concat]; try reflexivity. rewrite H, IH, map_app. reflexivity.
Qed.

(** ** Histories *)
(** What a history leaves in the component. *)
Definition alike (s s' : state) : Prop :=
  corotated s' = corotated s /\ youngModulus s' = b * youngModulus s /\ poissonRatio s' = poissonRatio s /\
  p_quadrature_nodes s' = map (map node_in_unit) (p_quadrature_nodes s) /\ p_stiffness_matrices s' = map (scaled (b * a)) (p_stiffness_matrices s) /\
  p_initial_rotation s' = p_initial_rotation s /\ p_current_rotation s' = p_current_rotation s.

Lemma resize_map (A B : Type) (f : A -> B) l n v : resize (map f l) n (f v) = map f (resize l n v).
Proof. unfold resize. rewrite map_length, map_app, firstn_map. f_equal. generalize (n - length l)%nat. intros k. induction k as [|k IH]; [reflexivity|]. cbn. rewrite IH. reflexivity. Qed.
Lemma quadrature_map (f : gauss_node -> gauss_node) (h h' : list nat -> list gauss_node) : forall rows olds, (forall row, In row rows -> h' row = map f (h row)) ->
  map2 (fun g row => g ++ h' row) (map (map f) olds) rows = map (map f) (map2 (fun g row => g ++ h row) olds rows).
Proof.
  induction rows as [|row rows IH]; intros [|o olds] H; cbn [map map2]; try reflexivity. rewrite (H row (or_introl eq_refl)), map_app. f_equal. apply IH. intros r Hr. apply H. right. exact Hr.
Qed.
Lemma alike_reinit s s' : alike s s' -> alike (reinit m s) (reinit m' s').
Proof.
  intros (C & Ey & En & Q & K & R0 & R1). unfold reinit. change (elements m') with (elements m). change (type m') with (type m). change (x0 m') with (scaled a (x0 m)).
  assert (EL : length (scaled a (x0 m)) = length (x0 m)) by apply map_length. rewrite EL. destruct (negb _).
  - destruct (type m); [|repeat split; assumption]. unfold alike. cbn. rewrite C, R0, R1. repeat split; assumption.
  - rewrite C, Ey, En, Q, R0, R1. set (old := match type m with TetrahedronElastic => [] | HexahedronElastic _ => p_quadrature_nodes s end).
    replace (match type m with TetrahedronElastic => [] | HexahedronElastic _ => map (map node_in_unit) (p_quadrature_nodes s) end) with (map (map node_in_unit) old) by (unfold old; destruct (type m); reflexivity).
    pose proof (resize_map _ _ (map node_in_unit) old (length (elements m)) []) as RM. change (map node_in_unit []) with (@nil gauss_node) in RM. rewrite RM.
    rewrite (quadrature_map node_in_unit (fun row => CorotModel.gauss_nodes_of (type m) (gather (x0 m) row))).
    2:{ intros row Hr. rewrite gather_scaled. apply nodes_scaled. exact (proj2 (proj2 (proj1 (Forall_forall _ _) (proj2 (proj2 VM)) row Hr))). }
    unfold alike. cbn. repeat split.
    + rewrite !map_map. apply map_ext. intros gs. apply stiffness_scaled.
    + destruct (corotated s); [|reflexivity]. apply map_ext. intros row. rewrite gather_scaled. apply frame_scaled. exact Ha.
Qed.
Lemma current_scaled x : map (fun row => frame (type m') (gather (scaled a x) row)) (elements m') = map (fun row => frame (type m) (gather x row)) (elements m).
Proof. apply map_ext. intros row. rewrite gather_scaled. apply frame_scaled. exact Ha. Qed.
Lemma alike_force s s' x f g : alike s s' -> alike (fst (addForce m s x f)) (fst (addForce m' s' (scaled a x) g)).
Proof.
  intros (C & Ey & En & Q & K & R0 & R1). unfold addForce. change (elements m') with (elements m). rewrite K, map_length. destruct (negb _); [repeat split; assumption|].
  unfold alike. cbn. repeat split; try assumption. rewrite C, R1. destruct (corotated s); [|reflexivity]. exact (current_scaled x).
Qed.
Lemma alike_step s s' c : alike s s' -> alike (CorotModel.step m s c) (CorotModel.step m' s' (call_in_units a b c)).
Proof.
  intros H. destruct c; cbn [CorotModel.step call_in_units]; try exact H.
  - destruct H as (C & Ey & En & Q & K & R0 & R1). repeat split; cbn; assumption.
  - apply alike_reinit. exact H.
  - apply alike_force. exact H.
  - destruct H as (C & Ey & En & Q & K & R0 & R1). unfold CorotModel.K. destruct (K_is_up_to_date s), (K_is_up_to_date s'); cbn; repeat split; assumption.
Qed.
Lemma alike_after c E nu calls : alike (CorotModel.after m (fresh c E nu) calls) (CorotModel.after m' (fresh c (b * E) nu) (map (call_in_units a b) calls)).
Proof.
  unfold CorotModel.after. assert (H : alike (fresh c E nu) (fresh c (b * E) nu)) by (repeat split). revert H. generalize (fresh c E nu), (fresh c (b * E) nu). induction calls as [|k calls IH]; intros s s' H; [exact H|]. cbn [map fold_left]. apply IH. apply alike_step. exact H.
Qed.
Lemma forces_alike s s' x f : alike s s' -> snd (addForce m' s' (scaled a x) (scaled (b * (a * a)) f)) = option_map (scaled (b * (a * a))) (snd (addForce m s x f)).
Proof.
  intros (C & Ey & En & Q & K & R0 & R1). unfold addForce. change (elements m') with (elements m). rewrite K, map_length. destruct (negb _); [reflexivity|]. cbn [snd]. rewrite C, R0, R1. pose proof (current_scaled x) as CU. change (elements m') with (elements m) in CU. rewrite CU.
  set (cur := if corotated s then _ else _). rewrite <- add_all_scaled. f_equal.
  apply (over_elements _ _ _ (scaled (b * a)) (fun p => (fst p, vscale (b * (a * a)) (snd p)))). intros row K0 [r0 r1]. change (x0 m') with (scaled a (x0 m)). rewrite displacement_scaled, selfadjoint_scaled, scatter_scaled. replace (b * a * a) with (b * (a * a)) by ring. reflexivity.
Qed.
Lemma increments_alike s s' k v df : alike s s' -> addDForce m' s' k (scaled a v) (scaled (b * (a * a)) df) = option_map (scaled (b * (a * a))) (addDForce m s k v df).
Proof.
  intros (C & Ey & En & Q & K & R0 & R1). unfold addDForce. change (elements m') with (elements m). rewrite K, map_length. destruct (negb _); [reflexivity|]. rewrite R1. rewrite <- add_all_scaled. f_equal.
  apply (over_elements _ _ _ (scaled (b * a)) (fun p => (fst p, vscale (b * (a * a)) (snd p)))). intros row K0 r1. rewrite local_scaled, selfadjoint_scaled. rewrite <- scatter_scaled. f_equal. unfold vscale. rewrite !map_map. apply map_ext. intros z. ring.
Qed.

(** ** The assembled matrix *)
Lemma block_scaled k M r c : block3 (scaled k M) r c = scaled k (block3 M r c).
Proof. unfold block3, scaled at 2. rewrite map_map. apply map_ext. intros i. unfold vscale. rewrite map_map. apply map_ext. intros j. apply e_scaled. Qed.
Lemma rotated_scaled k R1 M f : rotated R1 (scaled k M) f = scaled k (rotated R1 M f).
Proof. unfold rotated. change mscale with scaled. rewrite matmul_right, matmul_left, !scaled_scaled. f_equal. ring. Qed.
Lemma add_block_scaled i j M : add_block i j (scaled (b * a) M) = entries_in_units a b (add_block i j M).
Proof. unfold add_block, entries_in_units. rewrite map_flat_map. apply flat_map_ext. intros p. rewrite map_map. apply map_ext. intros q. rewrite e_scaled. reflexivity. Qed.
Lemma matrix_alike s s' k off : alike s s' -> addKToMatrix m' s' k off = option_map (entries_in_units a b) (addKToMatrix m s k off).
Proof.
  intros (C & Ey & En & Q & K & R0 & R1). unfold addKToMatrix. change (elements m') with (elements m). rewrite K, map_length, R1. destruct (_ || _)%bool; [reflexivity|]. cbn [option_map]. f_equal. unfold entries_in_units.
  apply (over_elements _ _ _ (scaled (b * a)) (fun t => (fst t, b * a * snd t))). intros row K0 r1. cbv zeta. rewrite map_app. f_equal.
  - rewrite map_flat_map. apply flat_map_ext. intros i. rewrite block_scaled, rotated_scaled. apply add_block_scaled.
  - rewrite map_flat_map. apply flat_map_ext. intros i. rewrite map_flat_map. apply flat_map_ext. intros j. rewrite map_app, block_scaled, rotated_scaled, transpose_scaled, !add_block_scaled. reflexivity.
Qed.
End Corot.
