(** Elements and meshes that store no energy (C96). *)

From Coq Require Import ZArith Reals Lra Lia Psatz.
From Coquelicot Require Import Coquelicot.
From Coq Require Import List Arith Bool.
From Verif Require Import GridGeoModel ShapeModel ShapeSpec ShapeProofs ShapeFieldProofs ShapeGaussProofs LinAlg LinAlgProofs RectSpec NewtonLocalProofs BarycentricModel MappingSpec MappingProofs TensorModel TensorSpec
  MaterialModel MaterialSpec MaterialProofs MaterialProperties SparseModel SparseProofs Sums HyperModel HyperSpec HyperProofs HyperProofs2 HyperProofs3 HyperProofs4 HyperProperties
  SpectrumProofs StabilitySpec StabilityProofs StabilityProofs2 StabilityProofs3 StabilityProofs4 StabilityProofs5 StabilityProofs7 StabilityProofs8 EnergySpec EnergyProofs EnergyProofs2.
Import ListNotations.
Open Scope R_scope.

Section Hexahedron.
Context (d : domain) (v : list (list R)) (row : list nat).
Hypothesis Sd : solid d.
Hypothesis RG : regular d.
Hypothesis HK : kind d = Hexahedron_Linear.
Hypothesis Hr : In row (connectivity d).
Hypothesis RT : forall q, In q (gauss_nodes (kind d)) -> rotation (deformation_gradient d v row (fst q)).
Let X := entries (positions d).
Let V := entries v.
Let F (a b c : bool) : list (list R) := deformation_gradient d v row [sg a; sg b; sg c].
Let x (a b c : bool) : vec := val row X [sg a; sg b; sg c].
Let u (a b c : bool) : vec := val row V [sg a; sg b; sg c].

Lemma F_rotation a b c : rotation (F a b c).
Proof. destruct (gauss_in a b c) as (q & Hq & Eq). rewrite <- HK in Hq. unfold F. rewrite <- Eq. exact (RT q Hq). Qed.
Lemma F_columns a b c j : (j < 3)%nat -> same (dif row V [sg a; sg b; sg c] j) (turn (F a b c) (dif row X [sg a; sg b; sg c] j)).
Proof.
  intros Hj i Hi. destruct (gauss_in a b c) as (q & Hq & Eq). rewrite <- HK in Hq.
  pose proof (proj1 (Forall_forall _ _) (proj1 (Forall_forall _ _) RG row Hr) q Hq) as N. cbv beta in N. unfold local_volume in N. rewrite Eq in N.
  unfold V. rewrite <- (dif_entries d row Sd HK Hr) by assumption.
  rewrite <- (product_inverse _ _ i j (rest_matrix d row Sd Hr [sg a; sg b; sg c]) N Hi Hj). unfold turn, F, deformation_gradient. apply sum3_ext. intros l Hl.
  unfold X. rewrite <- (dif_entries d row Sd HK Hr) by assumption. reflexivity.
Qed.
Lemma stretch s (p q p' q' e f : vec) M : (forall i, q' i - q i = s * f i) -> (forall i, p' i - p i = s * e i) -> same f (turn M e) -> same (sub q' q) (turn M (sub p' p)).
Proof. intros Q P G i Hi. unfold sub. rewrite Q, (G i Hi). unfold turn, sum3. rewrite !P. ring. Qed.
Lemma arm_x a b c : arm (x a b c) (u a b c) (F a b c) (x (negb a) b c) (u (negb a) b c) (F (negb a) b c).
Proof.
  split; apply (stretch (sg (negb a) - sg a)) with (e := dif row X [sg a; sg b; sg c] 0) (f := dif row V [sg a; sg b; sg c] 0); try (intros i; apply moved0).
  - apply F_columns. lia.
  - exact (F_columns (negb a) b c 0 ltac:(lia)).
Qed.
Lemma arm_y a b c : arm (x a b c) (u a b c) (F a b c) (x a (negb b) c) (u a (negb b) c) (F a (negb b) c).
Proof.
  split; apply (stretch (sg (negb b) - sg b)) with (e := dif row X [sg a; sg b; sg c] 1) (f := dif row V [sg a; sg b; sg c] 1); try (intros i; apply moved1).
  - apply F_columns. lia.
  - exact (F_columns a (negb b) c 1 ltac:(lia)).
Qed.
Lemma arm_z a b c : arm (x a b c) (u a b c) (F a b c) (x a b (negb c)) (u a b (negb c)) (F a b (negb c)).
Proof.
  split; apply (stretch (sg (negb c) - sg c)) with (e := dif row X [sg a; sg b; sg c] 2) (f := dif row V [sg a; sg b; sg c] 2); try (intros i; apply moved2).
  - apply F_columns. lia.
  - exact (F_columns a b (negb c) 2 ltac:(lia)).
Qed.
Lemma box a b c : triple (sub (x (negb a) b c) (x a b c)) (sub (x a (negb b) c) (x a b c)) (sub (x a b (negb c)) (x a b c)) <> 0.
Proof. exact (corners d row Sd RG HK Hr a b c). Qed.
Lemma point_entries a b c : integration_point d row a b c = [x a b c 0%nat; x a b c 1%nat; x a b c 2%nat].
Proof.
  assert (L3 : length (integration_point d row a b c) = 3%nat) by (unfold integration_point, world_coordinates, interpolate; rewrite map_length; apply seq_length).
  unfold x, X. rewrite <- !(val_world d row Sd HK Hr) by lia. destruct (length3 _ L3) as (e0 & e1 & e2 & ->). reflexivity.
Qed.
Lemma coplanar_triple a b c a' b' c' a2 b2 c2 a3 b3 c3 :
  coplanar (integration_point d row a b c) (integration_point d row a' b' c') (integration_point d row a2 b2 c2) (integration_point d row a3 b3 c3) ->
  triple (sub (x a' b' c') (x a b c)) (sub (x a3 b3 c3) (x a b c)) (sub (x a2 b2 c2) (x a b c)) = 0.
Proof. rewrite !point_entries. unfold coplanar, vdot, vcross, vminus. cbn [map2 nth Rsum fold_right]. intros H. rewrite <- H. unfold triple, sub. ring. Qed.
Lemma apart_of p q r : triple p q r <> 0 -> apart p q /\ apart q r /\ apart r p.
Proof.
  intros N. split; [exact (triple_apart p q r N)|]. split; [apply (triple_apart _ _ p)|apply (triple_apart _ _ q)]; intros Z; apply N; rewrite <- Z; unfold triple; ring.
Qed.
Lemma apart_diagonal (A B C : vec) : apart (sub A B) (sub C B) -> apart (sub B A) (sub C A).
Proof. unfold apart, cross, sub. intros [H|[H|H]]; [left|right; left|right; right]; intros Z; apply H; rewrite <- Ropp_0, <- Z; ring. Qed.
Lemma apart_sym p q : apart p q -> apart q p.
Proof. unfold apart, cross. intros [H|[H|H]]; [left|right; left|right; right]; intros Z; apply H; rewrite <- Ropp_0, <- Z; ring. Qed.
Lemma face_of A a P B b Q C c D e T : rotation P -> rotation Q -> rotation T -> arm A a P B b Q -> arm A a P D e T ->
  same (sub c b) (turn Q (sub C B)) -> same (sub c e) (turn T (sub C D)) -> apart (sub B A) (sub D A) -> apart (sub A B) (sub C B) -> apart (sub A D) (sub C D) ->
  face P Q T (sub B A) (sub D A) (sub C A).
Proof.
  intros RP RQ RT' [AB1 AB2] [AD1 AD2] QC TC A1 A2 A3. constructor; try assumption.
  - intros i Hi. rewrite <- AB1, <- AB2 by exact Hi. reflexivity.
  - intros i Hi. rewrite <- AD1, <- AD2 by exact Hi. reflexivity.
  - intros i Hi. transitivity (sub c a i).
    + specialize (AB2 i Hi). specialize (QC i Hi). unfold turn, sub, sum3 in *. lra.
    + specialize (AD2 i Hi). specialize (TC i Hi). unfold turn, sub, sum3 in *. lra.
  - apply apart_diagonal. exact A2.
  - apply apart_diagonal. exact A3.
Qed.
Lemma face_xy a b c : face (F a b c) (F (negb a) b c) (F a (negb b) c) (sub (x (negb a) b c) (x a b c)) (sub (x a (negb b) c) (x a b c)) (sub (x (negb a) (negb b) c) (x a b c)).
Proof.
  apply (face_of _ (u a b c) _ _ (u (negb a) b c) _ _ (u (negb a) (negb b) c) _ (u a (negb b) c)).
  - apply F_rotation. - apply F_rotation. - apply F_rotation. - apply arm_x. - apply arm_y. - apply arm_y. - apply arm_x.
  - exact (proj1 (apart_of _ _ _ (box a b c))).
  - pose proof (proj1 (apart_of _ _ _ (box (negb a) b c))) as A. rewrite negb_involutive in A. exact A.
  - pose proof (proj1 (apart_of _ _ _ (box a (negb b) c))) as A. rewrite negb_involutive in A. apply apart_sym. exact A.
Qed.
Lemma face_yz a b c : face (F a b c) (F a (negb b) c) (F a b (negb c)) (sub (x a (negb b) c) (x a b c)) (sub (x a b (negb c)) (x a b c)) (sub (x a (negb b) (negb c)) (x a b c)).
Proof.
  apply (face_of _ (u a b c) _ _ (u a (negb b) c) _ _ (u a (negb b) (negb c)) _ (u a b (negb c))).
  - apply F_rotation. - apply F_rotation. - apply F_rotation. - apply arm_y. - apply arm_z. - apply arm_z. - apply arm_y.
  - exact (proj1 (proj2 (apart_of _ _ _ (box a b c)))).
  - pose proof (proj1 (proj2 (apart_of _ _ _ (box a (negb b) c)))) as A. rewrite negb_involutive in A. exact A.
  - pose proof (proj1 (proj2 (apart_of _ _ _ (box a b (negb c))))) as A. rewrite negb_involutive in A. apply apart_sym. exact A.
Qed.
Lemma face_zx a b c : face (F a b c) (F a b (negb c)) (F (negb a) b c) (sub (x a b (negb c)) (x a b c)) (sub (x (negb a) b c) (x a b c)) (sub (x (negb a) b (negb c)) (x a b c)).
Proof.
  apply (face_of _ (u a b c) _ _ (u a b (negb c)) _ _ (u (negb a) b (negb c)) _ (u (negb a) b c)).
  - apply F_rotation. - apply F_rotation. - apply F_rotation. - apply arm_z. - apply arm_x. - apply arm_x. - apply arm_z.
  - exact (proj2 (proj2 (apart_of _ _ _ (box a b c)))).
  - pose proof (proj2 (proj2 (apart_of _ _ _ (box a b (negb c))))) as A. rewrite negb_involutive in A. exact A.
  - pose proof (proj2 (proj2 (apart_of _ _ _ (box (negb a) b c)))) as A. rewrite negb_involutive in A. apply apart_sym. exact A.
Qed.
(** The rotations of neighbours agree at a corner, then at all of them. *)
Definition agree a b c : Prop := F a b c = F (negb a) b c /\ F a b c = F a (negb b) c /\ F a b c = F a b (negb c).
Lemma agree_x a b c : F a b c = F (negb a) b c -> agree a b c.
Proof. intros E. split; [exact E|]. split; [apply (face_on _ _ _ _ _ _ (face_xy a b c)); exact E|apply (face_on _ _ _ _ _ _ (face_zx a b c)); exact E]. Qed.
Lemma agree_y a b c : F a b c = F a (negb b) c -> agree a b c.
Proof. intros E. apply agree_x. apply (face_on _ _ _ _ _ _ (face_xy a b c)). exact E. Qed.
Lemma agree_z a b c : F a b c = F a b (negb c) -> agree a b c.
Proof. intros E. apply agree_x. apply (face_on _ _ _ _ _ _ (face_zx a b c)). exact E. Qed.
Lemma agree_neighbours a b c : agree a b c -> agree (negb a) b c /\ agree a (negb b) c /\ agree a b (negb c).
Proof.
  intros (E1 & E2 & E3). split; [apply agree_x|split; [apply agree_y|apply agree_z]]; rewrite negb_involutive; symmetry; assumption.
Qed.
Lemma agree_all a b c : agree a b c -> forall a' b' c', agree a' b' c'.
Proof.
  intros H. assert (N := fun a b c H => proj1 (agree_neighbours a b c H)). assert (N1 := fun a b c H => proj1 (proj2 (agree_neighbours a b c H))). assert (N2 := fun a b c H => proj2 (proj2 (agree_neighbours a b c H))).
  assert (H1 : forall a', agree a' b c) by (intros a'; destruct (bool_dec a' a) as [->|E]; [exact H|]; replace a' with (negb a) by (destruct a, a'; first [reflexivity | congruence]); apply N; exact H).
  assert (H2 : forall a' b', agree a' b' c) by (intros a' b'; destruct (bool_dec b' b) as [->|E]; [apply H1|]; replace b' with (negb b) by (destruct b, b'; first [reflexivity | congruence]); apply N1; apply H1).
  intros a' b' c'. destruct (bool_dec c' c) as [->|E]; [apply H2|]. replace c' with (negb c) by (destruct c, c'; first [reflexivity | congruence]). apply N2. apply H2.
Qed.
Lemma unfolded_cross a b c a' b' c' a2 b2 c2 a3 b3 c3 :
  unfolded (integration_point d row a b c) (integration_point d row a' b' c') (integration_point d row a2 b2 c2) (integration_point d row a3 b3 c3) ->
  0 < dotp (cross (sub (x a' b' c') (x a b c)) (sub (x a3 b3 c3) (x a b c))) (cross (sub (x a' b' c') (x a b c)) (sub (x a2 b2 c2) (x a b c))) /\
  0 < dotp (cross (sub (x a3 b3 c3) (x a b c)) (sub (x a' b' c') (x a b c))) (cross (sub (x a3 b3 c3) (x a b c)) (sub (x a2 b2 c2) (x a b c))).
Proof.
  rewrite !point_entries. unfold unfolded, vdot, vcross, vminus. cbn [map2 nth Rsum fold_right]. intros [H1 H2].
  assert (T : forall y z, 0 < y -> z = y -> 0 < z) by (intros y z H ->; exact H). split; [apply (T _ _ H1)|apply (T _ _ H2)]; unfold dotp, cross, sub, sum3; ring.
Qed.
Hypothesis FM : firm d row.
Lemma some_agree : exists a b c, agree a b c.
Proof.
  destruct FM as (a & b & c & H). cbv beta iota zeta in H. exists a, b, c. destruct H as [[H|[H|H]]|(H1 & H2 & H3)].
  - apply coplanar_triple in H. apply agree_x. exact (proj1 (face_plane _ _ _ _ _ _ (face_xy a b c) H)).
  - apply coplanar_triple in H. apply agree_y. exact (proj1 (face_plane _ _ _ _ _ _ (face_yz a b c) H)).
  - apply coplanar_triple in H. apply agree_z. exact (proj1 (face_plane _ _ _ _ _ _ (face_zx a b c) H)).
  - apply unfolded_cross in H1, H2, H3. apply agree_x. destruct H1 as [U1 U2], H2 as [U3 U4], H3 as [U5 U6].
    exact (corner_unfolded _ _ _ _ _ _ _ _ _ _ (face_xy a b c) (face_yz a b c) (face_zx a b c) U1 U2 U3 U4 U5 U6).
Qed.
Lemma one_rotation : exists Q, rotation Q /\ forall q, In q (gauss_nodes (kind d)) -> deformation_gradient d v row (fst q) = Q.
Proof.
  destruct some_agree as (a0 & b0 & c0 & H). assert (A := agree_all a0 b0 c0 H).
  exists (F false false false). split; [apply F_rotation|]. intros q Hq. rewrite HK in Hq. destruct (gauss_all q Hq) as (a & b & c & ->). change (F a b c = F false false false).
  transitivity (F false b c); [destruct a; [exact (proj1 (A true b c))|reflexivity]|]. transitivity (F false false c); [destruct b; [exact (proj1 (proj2 (A false true c)))|reflexivity]|].
  destruct c; [exact (proj2 (proj2 (A false false true)))|reflexivity].
Qed.
End Hexahedron.

(** Parallelepipeds are firm. *)
Lemma straight_firm d row x0 E : solid d -> kind d = Hexahedron_Linear -> In row (connectivity d) ->
  affine_element 3 (kind d) (nodes_of_element d row) x0 E -> firm d row.
Proof.
  intros Sd HK Hr AF. pose proof (E_matrix d row x0 E Sd AF) as ME.
  destruct AF as (_ & Lx & W). rewrite HK in W. cbn [CanonicalDimension] in W. destruct (length3 _ Lx) as (a0 & a1 & a2 & ->).
  destruct (matrix3_cases E ME) as (e00 & e01 & e02 & e10 & e11 & e12 & e20 & e21 & e22 & ->).
  assert (P : forall a b c, integration_point d row a b c = [a0 + (e00 * sg a + e01 * sg b + e02 * sg c); a1 + (e10 * sg a + e11 * sg b + e12 * sg c); a2 + (e20 * sg a + e21 * sg b + e22 * sg c)]).
  { intros a b c. unfold integration_point. rewrite HK. fold (sg a) (sg b) (sg c). rewrite W by reflexivity. unfold vadd, matvec, dot. cbn. repeat (f_equal; try ring). }
  exists false, false, false. cbv zeta. rewrite !P. left. left. unfold coplanar, vdot, vcross, vminus. cbn [map2 nth Rsum fold_right]. ring.
Qed.

(** ** All plain shapes *)
Lemma plain_element d x row : solid d -> regular d -> plain d -> In row (connectivity d) -> unstretched d x -> not_inverted d x ->
  exists t Q, rotation Q /\ forall p, In p row -> forall c, (c < 3)%nat -> entries x p c = t c + turn Q (entries (positions d) p) c.
Proof.
  intros Sd RG PL Hr U NI.
  assert (RT : forall q, In q (gauss_nodes (kind d)) -> rotation (deformation_gradient d x row (fst q))).
  { intros q Hq. apply unstretched_rotation; [apply gradient_matrix3|exact (U row q Hr Hq)|]. apply gradient_volume; assumption. }
  assert (OR : exists Q, rotation Q /\ forall q, In q (gauss_nodes (kind d)) -> deformation_gradient d x row (fst q) = Q).
  { destruct PL as [HK|[HK PF]].
    - destruct (tetra_gauss d HK) as [q Hq]. exists (deformation_gradient d x row (fst q)). split; [exact (RT q Hq)|]. intros q' Hq'. rewrite HK in Hq, Hq'. cbn in Hq, Hq'.
      destruct Hq as [<-|[]], Hq' as [<-|[]]. reflexivity.
    - exact (one_rotation d x row Sd RG HK Hr RT (PF row Hr)). }
  destruct OR as (Q & RQ & HQ). assert (HF : full (kind d)) by (destruct PL as [HK|[HK _]]; rewrite HK; unfold full; cbn; tauto).
  destruct (turned_element d x row Q Sd RG HF Hr HQ) as [t Ht]. exists t, Q. split; [exact RQ|exact Ht].
Qed.

(** ** Meshes *)
Section Mesh.
Context (d : domain) (x : list (list R)).
Hypothesis Sd : solid d.
Let X := entries (positions d).
Definition follows (t : vec) (Q : list (list R)) (p : nat) : Prop := forall c, (c < 3)%nat -> entries x p c = t c + turn Q (entries (positions d) p) c.
Hypothesis rigid_element : forall row, In row (connectivity d) -> exists t Q, rotation Q /\ forall p, In p row -> follows t Q p.

Lemma same_placement t1 Q1 t2 Q2 a b c : rotation Q1 -> rotation Q2 -> cross_nonzero (X a) (X b) (X c) ->
  follows t1 Q1 a -> follows t1 Q1 b -> follows t1 Q1 c -> follows t2 Q2 a -> follows t2 Q2 b -> follows t2 Q2 c -> Q1 = Q2 /\ same t1 t2.
Proof.
  intros R1 R2 N A1 B1 C1 A2 B2 C2. assert (E : Q1 = Q2).
  { apply (same_rotation Q1 Q2 (sub (X b) (X a)) (sub (X c) (X a)) R1 R2).
    - unfold apart, cross, sub. exact N.
    - intros i Hi. specialize (A1 i Hi). specialize (B1 i Hi). specialize (A2 i Hi). specialize (B2 i Hi). unfold turn, sub, sum3, X in *. lra.
    - intros i Hi. specialize (A1 i Hi). specialize (C1 i Hi). specialize (A2 i Hi). specialize (C2 i Hi). unfold turn, sub, sum3, X in *. lra. }
  split; [exact E|]. intros i Hi. specialize (A1 i Hi). specialize (A2 i Hi). rewrite E in A1. lra.
Qed.
Lemma linked_placement r1 r2 t Q : linked d r1 r2 -> rotation Q -> (forall p, In p r1 -> follows t Q p) -> forall p, In p r2 -> follows t Q p.
Proof.
  intros L RQ. induction L as [r Hr|r1 r2 r3 H1 (a & b & c & I1 & I2 & NA) L IH]; intros M; [exact M|]. apply IH.
  assert (H2 : In r2 (connectivity d)) by (destruct L; assumption).
  destruct (rigid_element r2 H2) as (t2 & Q2 & RQ2 & M2).
  assert (C : cross_nonzero (X a) (X b) (X c)).
  { apply (nodes_not_aligned d a b c Sd); [| | |exact NA]; apply (proj1 (Forall_forall _ _) (proj2 (solid_row d r1 Sd H1))); apply I1; simpl; tauto. }
  destruct (same_placement t Q t2 Q2 a b c RQ RQ2 C) as [EQ ET]; try (apply M; apply I1; simpl; tauto); try (apply M2; apply I2; simpl; tauto).
  intros p Hp i Hi. rewrite (M2 p Hp i Hi), EQ, ET by exact Hi. reflexivity.
Qed.
Lemma Id_rotation : rotation Id3.
Proof. split; [split; [reflexivity|repeat constructor]|]. split; [apply rest_invariants|apply rest_invariants]. Qed.
Lemma whole_placement : one_piece d -> exists t Q, rotation Q /\ forall p, (p < length (positions d))%nat -> follows t Q p.
Proof.
  intros [Lk Us]. destruct (connectivity d) as [|r rs] eqn:EC.
  - exists (fun _ => 0), Id3. split; [apply Id_rotation|]. intros p Hp. destruct (Us p Hp) as (r & [] & _).
  - rewrite <- EC in *. assert (Hr : In r (connectivity d)) by (rewrite EC; left; reflexivity).
    destruct (rigid_element r Hr) as (t & Q & RQ & M). exists t, Q. split; [exact RQ|]. intros p Hp. destruct (Us p Hp) as (r2 & Hr2 & Hp2).
    exact (linked_placement r r2 t Q (Lk r r2 Hr Hr2) RQ M p Hp2).
Qed.
Lemma whole_placed : field (length (positions d)) 3 x -> one_piece d -> rigidly_placed (positions d) x.
Proof.
  intros Fx OP. destruct (whole_placement OP) as (t & Q & RQ & M). exists (map t (seq 0 3)), Q. split; [reflexivity|]. split; [exact RQ|].
  pose proof (placed_field d (map t (seq 0 3)) Q eq_refl (proj1 RQ)) as FP.
  apply (nth_ext _ _ [] []); [rewrite (proj1 Fx), (proj1 FP); reflexivity|]. intros p Hp. rewrite (proj1 Fx) in Hp.
  pose proof (field_row _ x p Fx Hp) as L1. pose proof (field_row _ _ p FP Hp) as L2.
  apply (nth_ext _ _ 0 0); [lia|]. intros c Hc. rewrite L1 in Hc. change (entries x p c = entries (placed (map t (seq 0 3)) Q (positions d)) p c).
  rewrite (placed_entries d Sd) by (assumption || reflexivity || apply RQ). rewrite (M p Hp c Hc). unfold turn. f_equal. destruct c as [|[|[|]]]; try lia; reflexivity.
Qed.
Lemma held_placement a b c : field (length (positions d)) 3 x -> one_piece d ->
  (a < length (positions d))%nat -> (b < length (positions d))%nat -> (c < length (positions d))%nat ->
  not_aligned (nth a (positions d) []) (nth b (positions d) []) (nth c (positions d) []) ->
  (forall p, In p [a; b; c] -> nth p x [] = nth p (positions d) []) -> x = positions d.
Proof.
  intros Fx OP Ha Hb Hc NA H. destruct (whole_placement OP) as (t & Q & RQ & M).
  assert (C : cross_nonzero (X a) (X b) (X c)) by (apply (nodes_not_aligned d a b c Sd); assumption).
  assert (Z : forall p, In p [a; b; c] -> follows (fun _ => 0) Id3 p).
  { intros p Hp i Hi. unfold entries at 1. rewrite (H p Hp). unfold turn, sum3, Id3. unfold entries at 1 3 5. destruct i as [|[|[|]]]; try lia; cbn [nth]; unfold entries; ring. }
  destruct (same_placement t Q (fun _ => 0) Id3 a b c RQ Id_rotation C) as [EQ ET]; try (apply M; assumption); try (apply Z; simpl; tauto).
  assert (FX : field (length (positions d)) 3 (positions d)) by apply Sd.
  apply (nth_ext _ _ [] []); [rewrite (proj1 Fx); reflexivity|]. intros p Hp. rewrite (proj1 Fx) in Hp.
  pose proof (field_row _ x p Fx Hp) as L1. pose proof (field_row _ _ p FX Hp) as L2.
  apply (nth_ext _ _ 0 0); [lia|]. intros i Hi. rewrite L1 in Hi. change (entries x p i = entries (positions d) p i). rewrite (M p Hp i Hi), EQ, ET by exact Hi.
  unfold turn, sum3, Id3. unfold entries at 1 3 5. destruct i as [|[|[|]]]; try lia; cbn [nth]; ring.
Qed.
End Mesh.
