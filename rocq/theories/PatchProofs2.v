(** The forces of a hyperelastic body placed by an affine map (C97). *)

From Coq Require Import ZArith Reals Lra Lia.
From Coquelicot Require Import Coquelicot.
From Coq Require Import List Arith Bool Permutation.
From Verif Require Import GridGeoModel ShapeModel ShapeSpec ShapeProofs ShapeFieldProofs ShapeGaussProofs LinAlg LinAlgProofs BarycentricModel MappingSpec MappingProofs TensorModel TensorSpec
  MaterialModel MaterialSpec MaterialProofs SparseModel SparseProofs Sums HyperModel HyperSpec HyperProofs HyperProofs2 HyperProofs3 HyperProofs4 HyperProperties
  StabilityProofs StabilityProofs2 EnergySpec EnergyProofs PatchSpec PatchProofs.
Import ListNotations.
Open Scope R_scope.

(** ** Shares *)
Lemma share_ext X Y b f : (forall i, In i f -> X i = Y i) -> share X (b, f) = share Y (b, f).
Proof.
  intros H. unfold share. cbn [fst snd].
  assert (N : forall j, (j < length f)%nat -> X (nth j f 0%nat) = Y (nth j f 0%nat)) by (intros j Hj; apply H, nth_In, Hj).
  destruct f as [|? [|? [|? [|? [|? [|? [|? [|? [|]]]]]]]]]; cbn [length] in *; try reflexivity; destruct b; try reflexivity;
    repeat match goal with |- context [X (nth ?j ?l 0%nat)] => rewrite (N j) by (cbn [length]; lia) end; reflexivity.
Qed.
Lemma share_map X h b f : share X (b, map h f) = share (fun i => X (h i)) (b, f).
Proof.
  unfold share. cbn [fst snd]. rewrite map_length.
  destruct f as [|? [|? [|? [|? [|? [|? [|? [|? [|]]]]]]]]]; cbn [length map nth]; destruct b; reflexivity.
Qed.
Lemma share_other_side X f k : (forall i, length (X i) = 3%nat) -> (k < 3)%nat ->
  nth k (share X (other_side f)) 0 = - nth k (share X f) 0.
Proof.
  intros HX Hk. destruct f as [b f]. unfold other_side. cbn [fst snd].
  assert (E : forall i, exists x y z, X i = [x; y; z]) by (intros i; apply length3, HX).
  destruct f as [|i0 [|i1 [|i2 [|i3 [|i4 [|i5 [|i6 [|i7 [|]]]]]]]]];
    try (unfold share; cbn [fst snd rev app length]; destruct b, k; cbn; ring);
    try (unfold share; cbn [fst snd]; cbn [length]; rewrite rev_length; cbn [length]; destruct b; destruct k as [|[|[|]]]; cbn; lra).
  - unfold share. cbn [fst snd rev app length nth].
    destruct (E i0) as (x0 & y0 & z0 & ->), (E i1) as (x1 & y1 & z1 & ->), (E i2) as (x2 & y2 & z2 & ->). destruct b; destruct k as [|[|[|]]]; try lia; cbn; field.
  - unfold share. cbn [fst snd rev app length nth].
    destruct (E i0) as (x0 & y0 & z0 & ->), (E i1) as (x1 & y1 & z1 & ->), (E i2) as (x2 & y2 & z2 & ->), (E i3) as (x3 & y3 & z3 & ->). destruct b; destruct k as [|[|[|]]]; try lia; cbn; field.
  - unfold share. cbn [fst snd rev app length nth].
    destruct (E i1) as (x1 & y1 & z1 & ->), (E i3) as (x3 & y3 & z3 & ->), (E i5) as (x5 & y5 & z5 & ->). destruct b; destruct k as [|[|[|]]]; try lia; cbn; field.
  - unfold share. cbn [fst snd rev app length nth].
    destruct (E i0) as (x0 & y0 & z0 & ->), (E i1) as (x1 & y1 & z1 & ->), (E i2) as (x2 & y2 & z2 & ->), (E i3) as (x3 & y3 & z3 & ->),
      (E i4) as (x4 & y4 & z4 & ->), (E i5) as (x5 & y5 & z5 & ->), (E i6) as (x6 & y6 & z6 & ->), (E i7) as (x7 & y7 & z7 & ->). destruct b; destruct k as [|[|[|]]]; try lia; cbn; field.
Qed.
Lemma paired_shares X l k : (forall i, length (X i) = 3%nat) -> (k < 3)%nat -> paired l -> Rsum (map (fun f => nth k (share X f) 0) l) = 0.
Proof.
  intros HX Hk P. unfold paired in P. pose proof (Permutation_map (fun f => nth k (share X f) 0) P) as Q. apply Rsum_permutation in Q. rewrite map_map in Q.
  rewrite (Rsum_ext _ (fun f => nth k (share X (other_side f)) 0) (fun f => - nth k (share X f) 0)) in Q by (intros f _; apply share_other_side; assumption).
  rewrite Rsum_opp in Q. lra.
Qed.

(** ** Elements *)
Lemma faces_in e a f i : In f (faces_around e a) -> In i f -> (i < NumberOfNodes e)%nat.
Proof.
  unfold faces_around. intros Hf Hi. apply in_flat_map in Hf. destruct Hf as (g & Hg & Hf). apply in_flat_map in Hf. destruct Hf as (j & _ & Hf).
  destruct (Nat.eqb (nth j g 0%nat) a); [|destruct Hf]. destruct Hf as [<-|[]].
  assert (I : In i g) by (apply in_app_iff in Hi; rewrite <- (firstn_skipn j g); apply in_app_iff; tauto). clear Hi.
  destruct e; cbn in Hg; repeat (destruct Hg as [<-|Hg]); try destruct Hg; cbn in I; repeat (destruct I as [<-|I]; [cbn; lia|]); destruct I.
Qed.
Lemma element_shares d row a k : solid d -> In row (connectivity d) -> patchable d -> (a < NumberOfNodes (kind d))%nat -> (k < 3)%nat ->
  nodal_integral (kind d) (gauss_nodes (kind d)) (nodes_of_element d row) a k = nodal_shares (kind d) (nodes_of_element d row) a k.
Proof.
  intros Sd Hr P Ha Hk. destruct (solid_row d row Sd Hr) as [Hl HF].
  assert (E : forall p, In p (nodes_of_element d row) -> exists x y z, p = [x; y; z]).
  { intros p Hp. unfold nodes_of_element in Hp. apply in_map_iff in Hp. destruct Hp as (i & <- & Hi). apply length3.
    apply (proj1 (Forall_forall _ _) (proj2 (proj2 (proj2 Sd)))), nth_In. exact (proj1 (Forall_forall _ _) HF i Hi). }
  unfold patchable, straight in P. destruct (kind d) eqn:K; try destruct P; cbn [NumberOfNodes] in *;
    try (destruct (P row Hr) as (t & M & Lt & MM & ->)).
  - assert (L : length (nodes_of_element d row) = 4%nat) by (unfold nodes_of_element; rewrite map_length; exact Hl).
    destruct (nodes_of_element d row) as [|p0 [|p1 [|p2 [|p3 [|]]]]]; try discriminate.
    destruct (E p0) as (x0 & y0 & z0 & ->), (E p1) as (x1 & y1 & z1 & ->), (E p2) as (x2 & y2 & z2 & ->), (E p3) as (x3 & y3 & z3 & ->); try (cbn; tauto).
    apply tetrahedron_faces; assumption.
  - apply quadratic_tetrahedron_faces; assumption.
  - assert (L : length (nodes_of_element d row) = 8%nat) by (unfold nodes_of_element; rewrite map_length; exact Hl).
    destruct (nodes_of_element d row) as [|p0 [|p1 [|p2 [|p3 [|p4 [|p5 [|p6 [|p7 [|]]]]]]]]]; try discriminate.
    destruct (E p0) as (x0 & y0 & z0 & ->), (E p1) as (x1 & y1 & z1 & ->), (E p2) as (x2 & y2 & z2 & ->), (E p3) as (x3 & y3 & z3 & ->),
      (E p4) as (x4 & y4 & z4 & ->), (E p5) as (x5 & y5 & z5 & ->), (E p6) as (x6 & y6 & z6 & ->), (E p7) as (x7 & y7 & z7 & ->); try (cbn; tauto).
    apply hexahedron_faces; assumption.
  - apply quadratic_hexahedron_faces; assumption.
Qed.
Lemma site_length d i : solid d -> length (site d i) = 3%nat.
Proof.
  intros Sd. unfold site. destruct (Nat.lt_ge_cases i (length (positions d))) as [H|H].
  - apply (proj1 (Forall_forall _ _) (proj2 (proj2 (proj2 Sd)))), nth_In, H.
  - rewrite nth_overflow by exact H. reflexivity.
Qed.
Lemma element_link d row a k : solid d -> In row (connectivity d) ->
  nodal_shares (kind d) (nodes_of_element d row) a k =
  Rsum (map (fun f => nth k (share (site d) f) 0) (map (fun f => (corner (kind d) a, map (fun i => nth i row 0%nat) f)) (faces_around (kind d) a))).
Proof.
  intros Sd Hr. destruct (solid_row d row Sd Hr) as [Hl HF]. unfold nodal_shares. rewrite map_map. apply Rsum_ext. intros f Hf. f_equal.
  rewrite share_map. apply share_ext. intros i Hi. unfold nodes_of_element.
  rewrite (nth_indep _ [] ((fun i => nth i (positions d) []) 0%nat)) by (rewrite map_length, Hl; exact (faces_in _ _ _ _ Hf Hi)).
  rewrite (map_nth (fun i => nth i (positions d) [])). unfold site. apply nth_indep. apply (proj1 (Forall_forall _ _) HF), nth_In. rewrite Hl. exact (faces_in _ _ _ _ Hf Hi).
Qed.

(** |J| J^-T v *)
Lemma cofactor_inverse J v k : matrix3 J -> det J <> 0 -> length v = 3%nat -> (k < 3)%nat ->
  nth k (cofactor_product J v) 0 = det J * sum3 (fun l => nth l v 0 * entries (inverse J) l k).
Proof.
  intros MJ D Lv Hk. destruct (matrix3_cases J MJ) as (a & b & c & d' & e' & f & g & h & i & ->), (length3 v Lv) as (v0 & v1 & v2 & ->).
  unfold cofactor_product, column, entries, sum3. cbn [det] in D. cbn [map nth vcross vscale vadd map2 inverse det].
  destruct k as [|[|[|]]]; try lia; cbn [nth]; field; exact D.
Qed.

(** ** The mesh *)
Section Mesh.
Context (d : domain) (s : R).
Hypothesis Sd : solid d.
Hypothesis NA : numbered_alike d s.

Lemma numbered_regular : regular d.
Proof.
  destruct NA as [_ H]. apply Forall_forall. intros row Hr. apply Forall_forall. intros g Hg.
  pose proof (proj1 (Forall_forall _ _) (proj1 (Forall_forall _ _) H row Hr) g Hg) as P. cbv beta in P. intros Z. rewrite Z in P. lra.
Qed.
Lemma numbered_volume row g : In row (connectivity d) -> In g (gauss_nodes (kind d)) -> Rabs (local_volume d row (fst g)) = s * local_volume d row (fst g).
Proof.
  destruct NA as [S H]. intros Hr Hg. pose proof (proj1 (Forall_forall _ _) (proj1 (Forall_forall _ _) H row Hr) g Hg) as P. cbv beta in P.
  destruct S as [-> | ->]; [rewrite Rabs_pos_eq by lra; ring|]. rewrite Rabs_left by lra. ring.
Qed.
Lemma node_integral row a k : In row (connectivity d) -> (a < NumberOfNodes (kind d))%nat -> (k < 3)%nat ->
  Rsum (map (fun g => jacobian_determinant g * weight g * entries (dN_dx g) a k) (quad d row)) =
  s * nodal_integral (kind d) (gauss_nodes (kind d)) (nodes_of_element d row) a k.
Proof.
  intros Hr Ha Hk. destruct (solid_row d row Sd Hr) as [Hl _]. destruct Sd as (_ & CD & _).
  unfold quad. rewrite get_gauss_nodes_alt, map_map. unfold nodal_integral. rewrite <- Rsum_scal_l. apply Rsum_ext. intros g Hg.
  rewrite the_node_entries by assumption. cbn [jacobian_determinant weight the_node].
  change (det (rest_J d row g)) with (local_volume d row (fst g)). rewrite numbered_volume by assumption.
  change (jacobian 3 (kind d) (nodes_of_element d row) (fst g)) with (rest_J d row g).
  rewrite cofactor_inverse; [|apply rest_J_matrix; assumption| |rewrite length_dL_row by exact Ha; exact CD|exact Hk].
  - change (det (rest_J d row g)) with (local_volume d row (fst g)). unfold entries. ring.
  - exact (proj1 (Forall_forall _ _) (proj1 (Forall_forall _ _) numbered_regular row Hr) g Hg).
Qed.

Lemma patch_integral m t Q f p c : length t = 3%nat -> matrix3 Q -> field (length (positions d)) 3 f -> (c < 3)%nat ->
  exists f', addForce m d (placed t Q (positions d)) f = Some f' /\ field (length (positions d)) 3 f' /\
    entries f' p c = entries f p c - s * sum3 (fun k => entries (stress_power m Q) c k *
      Rsum (map (fun row => Rsum (map (fun a => if Nat.eqb (nth a row 0%nat) p then nodal_integral (kind d) (gauss_nodes (kind d)) (nodes_of_element d row) a k else 0)
        (seq 0 (NumberOfNodes (kind d))))) (connectivity d))).
Proof.
  intros Lt MQ Ff Hc. set (x := placed t Q (positions d)). pose proof (placed_field d t Q Lt MQ) as Fx.
  destruct (addForce_spec m d x f _ (proj1 Sd) eq_refl (proj1 Fx) Ff) as (f' & E & Ff' & S). exists f'. split; [exact E|]. split; [exact Ff'|].
  rewrite S by exact Hc. f_equal.
  assert (X : forall row a, In row (connectivity d) -> (a < NumberOfNodes (kind d))%nat ->
    entries (element_forces m (gather x row) (quad d row)) a c =
    s * sum3 (fun k => entries (stress_power m Q) c k * nodal_integral (kind d) (gauss_nodes (kind d)) (nodes_of_element d row) a k)).
  { intros row a Hr Ha. destruct (solid_row d row Sd Hr) as [Hl _].
    assert (Lg : length (gather x row) = NumberOfNodes (kind d)) by (unfold gather; rewrite map_length; exact Hl).
    destruct (element_forces_spec m (gather x row) (quad d row) _ Lg (quad_sound d row)) as (_ & _ & EF). rewrite EF.
    transitivity (sum3 (fun k => entries (stress_power m Q) c k * Rsum (map (fun g => jacobian_determinant g * weight g * entries (dN_dx g) a k) (quad d row)))).
    - unfold sum3. rewrite <- !Rsum_scal_l, <- !Rsum_plus. apply Rsum_ext. intros g Hg.
      destruct (gauss_forces_spec m (gather x row) g _ Lg (proj1 (Forall_forall _ _) (quad_sound d row) g Hg)) as (_ & _ & GF). rewrite GF by assumption.
      unfold quad in Hg. rewrite get_gauss_nodes_alt in Hg. apply in_map_iff in Hg. destruct Hg as (q & <- & Hq).
      rewrite <- Hl. fold (gradient x row (the_node d row q)). rewrite (node_gradient d Sd) by assumption.
      unfold x. rewrite (placed_gradient d Sd numbered_regular) by assumption. unfold sum3. ring.
    - unfold sum3. rewrite !node_integral by (assumption || lia). ring. }
  unfold sum3. rewrite <- !Rsum_scal_l, <- !Rsum_plus, <- Rsum_scal_l. apply Rsum_ext. intros row Hr.
  rewrite <- !Rsum_scal_l, <- !Rsum_plus, <- Rsum_scal_l. apply Rsum_ext. intros a Ha. apply in_seq in Ha.
  destruct (Nat.eqb (nth a row 0%nat) p); [|ring]. rewrite X by (assumption || lia). reflexivity.
Qed.

Hypothesis PA : patchable d.
Lemma patch_force m t Q f p c : length t = 3%nat -> matrix3 Q -> field (length (positions d)) 3 f -> (c < 3)%nat ->
  exists f', addForce m d (placed t Q (positions d)) f = Some f' /\ field (length (positions d)) 3 f' /\
    entries f' p c = entries f p c - s * sum3 (fun k => entries (stress_power m Q) c k * Rsum (map (fun h => nth k (share (site d) h) 0) (link d p))).
Proof.
  intros Lt MQ Ff Hc. destruct (patch_integral m t Q f p c Lt MQ Ff Hc) as (f' & E & Ff' & S). exists f'. split; [exact E|]. split; [exact Ff'|].
  rewrite S. f_equal. f_equal. apply sum3_ext. intros k Hk. f_equal. unfold link. rewrite Rsum_flat_map. apply Rsum_ext. intros row Hr.
  rewrite Rsum_flat_map. apply Rsum_ext. intros a Ha. apply in_seq in Ha. destruct (Nat.eqb (nth a row 0%nat) p); [|reflexivity].
  rewrite element_shares by (assumption || lia). apply element_link; assumption.
Qed.
End Mesh.
