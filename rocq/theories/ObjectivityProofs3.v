(** Proofs for C102: the forces do not depend on the frame in which the rest positions are given; without corotation. *)

From Coq Require Import ZArith Reals Lra Lia.
From Coquelicot Require Import Coquelicot.
From Coq Require Import List Arith Bool.
From Verif Require Import GridGeoModel ShapeModel ShapeSpec ShapeProofs ShapeFieldProofs ShapeGaussProofs LinAlg LinAlgProofs RectModel RectProofs BarycentricModel MappingSpec MappingProofs TensorModel TensorSpec
  MaterialModel MaterialSpec MaterialProofs MaterialProperties SparseModel SparseProofs Sums TractionModel TractionProofs HyperModel HyperSpec HyperProofs HyperProofs2 HyperProofs3 HyperProofs4 HyperProperties EnergyProofs.
From Verif Require Import CorotSpec ObjectivitySpec ObjectivityProofs ObjectivityProofs2.
From Verif Require CorotModel CorotProofs CorotProofs2 CorotProofs3 CorotProofs4 CorotProperties PatchProofs3.
Import ListNotations.
Open Scope R_scope.

Definition mul (f g : nat -> nat -> R) (i j : nat) : R := sum3 (fun k => f i k * g k j).
Lemma adj_mul f g i j : (i < 3)%nat -> (j < 3)%nat -> adj (mul f g) i j = mul (adj g) (adj f) i j.
Proof. intros Hi Hj. destruct i as [|[|[|] ] ]; try lia; destruct j as [|[|[|] ] ]; try lia; unfold mul, sum3, adj; ring. Qed.
Lemma det3_mul f g : det3 (mul f g) = det3 f * det3 g.
Proof. unfold det3, mul, sum3. ring. Qed.
Lemma adj_ext f g i j : (forall i j, (i < 3)%nat -> (j < 3)%nat -> f i j = g i j) -> (i < 3)%nat -> (j < 3)%nat -> adj f i j = adj g i j.
Proof. intros H Hi Hj. destruct i as [|[|[|] ] ]; try lia; destruct j as [|[|[|] ] ]; try lia; unfold adj; rewrite !H by lia; reflexivity. Qed.
Lemma det3_ext f g : (forall i j, (i < 3)%nat -> (j < 3)%nat -> f i j = g i j) -> det3 f = det3 g.
Proof. intros H. unfold det3. rewrite !H by lia. reflexivity. Qed.
Definition tr_ (q : nat -> nat -> R) (i j : nat) : R := q j i.

Section Rotation.
Context (Q : list (list R)).
Hypothesis HQ : rotation Q.
Let q := entries Q.
Lemma rows_orthonormal i j : (i < 3)%nat -> (j < 3)%nat -> sum3 (fun k => q i k * q j k) = delta i j.
Proof.
  intros Hi Hj. unfold q. destruct (CorotProofs.rotation_entries Q HQ) as (q0 & q1 & q2 & q3 & q4 & q5 & q6 & q7 & q8 & EQ & A1 & A2 & A3 & A4 & A5 & A6 & C0 & C1 & C2 & C3 & C4 & C5 & C6 & C7 & C8).
  assert (D1 : det [[q0; q1; q2]; [q3; q4; q5]; [q6; q7; q8]] = 1) by (rewrite <- EQ; apply HQ). unfold det in D1. cbn in D1. rewrite EQ.
  unfold sum3, entries, delta. destruct i as [|[|[|] ] ]; try lia; destruct j as [|[|[|] ] ]; try lia; cbn [nth Nat.eqb];
  first [ rewrite C0 at 1; rewrite C1 at 1; rewrite C2 at 1; lra | rewrite C3 at 1; rewrite C4 at 1; rewrite C5 at 1; lra | rewrite C6 at 1; rewrite C7 at 1; rewrite C8 at 1; lra
        | rewrite C0 at 1; rewrite C1 at 1; rewrite C2 at 1; ring | rewrite C3 at 1; rewrite C4 at 1; rewrite C5 at 1; ring | rewrite C6 at 1; rewrite C7 at 1; rewrite C8 at 1; ring ].
Qed.
Lemma adj_rotation i j : (i < 3)%nat -> (j < 3)%nat -> adj q i j = q j i.
Proof.
  intros Hi Hj. unfold q. destruct (CorotProofs.rotation_entries Q HQ) as (q0 & q1 & q2 & q3 & q4 & q5 & q6 & q7 & q8 & EQ & _ & _ & _ & _ & _ & _ & C0 & C1 & C2 & C3 & C4 & C5 & C6 & C7 & C8).
  rewrite EQ. unfold adj, entries. destruct i as [|[|[|] ] ]; try lia; destruct j as [|[|[|] ] ]; try lia; cbn [nth]; lra.
Qed.
Lemma det3_rotation : det3 q = 1.
Proof. unfold q. rewrite <- det_entries by apply HQ. apply HQ. Qed.
Definition conj (f : nat -> nat -> R) (i j : nat) : R := mul (mul q f) (tr_ q) i j.
Lemma adj_conj f i j : (i < 3)%nat -> (j < 3)%nat -> adj (conj f) i j = conj (adj f) i j.
Proof.
  intros Hi Hj. unfold conj. rewrite adj_mul by assumption. unfold mul at 1. rewrite (sum3_ext _ (fun k => q i k * mul (adj f) (tr_ q) k j)).
  - unfold mul, sum3. ring.
  - intros k Hk. rewrite adj_mul by assumption. f_equal.
    + assert (T : forall f i j, (i < 3)%nat -> (j < 3)%nat -> adj (tr_ f) i j = adj f j i).
      { clear. intros f i j Hi Hj. destruct i as [|[|[|] ] ]; try lia; destruct j as [|[|[|] ] ]; try lia; unfold adj, tr_; ring. }
      rewrite T by assumption. apply adj_rotation; assumption.
    + unfold mul. apply sum3_ext. intros l Hl. rewrite adj_rotation by assumption. reflexivity.
Qed.
Lemma det3_conj f : det3 (conj f) = det3 f.
Proof. unfold conj. rewrite !det3_mul, det3_rotation. replace (det3 (tr_ q)) with (det3 q) by (unfold det3, tr_; ring). rewrite det3_rotation. ring. Qed.
Lemma conj_delta i j : (i < 3)%nat -> (j < 3)%nat -> conj delta i j = delta i j.
Proof. intros Hi Hj. rewrite <- rows_orthonormal by assumption. unfold conj, mul, tr_, sum3, delta. cbn [Nat.eqb]. ring. Qed.
Lemma trace_conj f : conj f 0%nat 0%nat + conj f 1%nat 1%nat + conj f 2%nat 2%nat = f 0%nat 0%nat + f 1%nat 1%nat + f 2%nat 2%nat.
Proof.
  transitivity (sum3 (fun a => sum3 (fun b => f a b * sum3 (fun k => q k a * q k b)))).
  - unfold conj, mul, tr_, sum3. ring.
  - rewrite (sum3_ext _ (fun a => sum3 (fun b => f a b * delta a b))); [unfold sum3, delta; cbn [Nat.eqb]; ring|].
    intros a Ha. apply sum3_ext. intros b Hb. unfold q. rewrite orthonormal by assumption. reflexivity.
Qed.
(** Isotropy: the stress of the turned strain is the turned stress. *)
Lemma stress_conj m J M M' i j : matrix3 M -> matrix3 M' -> (forall i j, (i < 3)%nat -> (j < 3)%nat -> entries M' i j = conj (entries M) i j) -> (i < 3)%nat -> (j < 3)%nat ->
  entries (PK2_stress m J M') i j = conj (entries (PK2_stress m J M)) i j.
Proof.
  intros HM HM' E Hi Hj. destruct (kind_of m) eqn:K.
  - rewrite stress_neo_entry by assumption. cbv beta zeta. rewrite (adj_ext _ (conj (entries M))), (det3_ext _ (conj (entries M))) by assumption.
    rewrite det3_conj, adj_conj by assumption. rewrite <- (conj_delta i j) by assumption. unfold conj, mul, tr_, sum3. rewrite !stress_neo_entry by (first [assumption | lia]). cbv beta zeta. unfold Rdiv. ring.
  - rewrite stress_svk_entry by assumption. cbv beta zeta. rewrite !E by lia.
    replace (lambda m * (/ 2 * (conj (entries M) 0 0 - delta 0 0) + / 2 * (conj (entries M) 1 1 - delta 1 1) + / 2 * (conj (entries M) 2 2 - delta 2 2)))
      with (lambda m * (/ 2 * ((entries M 0 0 + entries M 1 1 + entries M 2 2) - (delta 0 0 + delta 1 1 + delta 2 2)))) by (rewrite <- trace_conj; ring).
    rewrite <- (conj_delta i j) by assumption. unfold conj, mul, tr_, sum3. rewrite !stress_svk_entry by (first [assumption | lia]). cbv beta zeta. ring.
Qed.
(** The stress power against the turned gradients. *)
Lemma power_turned m F F' (dn dn' : nat -> R) c : matrix3 F -> matrix3 F' -> (c < 3)%nat -> (forall i j, (i < 3)%nat -> (j < 3)%nat -> entries F' i j = mul (entries F) (tr_ q) i j) ->
  (forall j, (j < 3)%nat -> dn' j = sum3 (fun k => q j k * dn k)) ->
  sum3 (fun k => entries (stress_power m F') c k * dn' k) = sum3 (fun k => entries (stress_power m F) c k * dn k).
Proof.
  intros MF MF' Hc EF Ed.
  assert (D : det F' = det F).
  { rewrite !det_entries by assumption. rewrite (det3_ext _ (mul (entries F) (tr_ q))) by assumption. rewrite det3_mul. replace (det3 (tr_ q)) with (det3 q) by (unfold det3, tr_; ring). rewrite det3_rotation. ring. }
  assert (CG : forall i j, (i < 3)%nat -> (j < 3)%nat -> entries (cauchy_green F') i j = conj (entries (cauchy_green F)) i j).
  { intros i j Hi Hj. unfold conj, mul, tr_. unfold cauchy_green. rewrite entries_of_entries by assumption. unfold sum3. rewrite !entries_of_entries by lia. rewrite !EF by lia. unfold mul, tr_, sum3. ring. }
  unfold stress_power. rewrite D.
  pose proof (stress_conj m (det F) (cauchy_green F) (cauchy_green F') ) as SC.
  set (S' := PK2_stress m (det F) (cauchy_green F')) in *. set (S := PK2_stress m (det F) (cauchy_green F)) in *.
  rewrite (sum3_ext _ (fun k => sum3 (fun l => mul (entries F) (tr_ q) c l * conj (entries S) l k) * sum3 (fun j => q k j * dn j))).
  - transitivity (sum3 (fun a => sum3 (fun b => sum3 (fun d => sum3 (fun e => entries F c a * entries S b d * dn e * (sum3 (fun l => q l a * q l b) * sum3 (fun k => q k d * q k e))))))); [unfold conj, mul, tr_, sum3; ring|].
    rewrite (sum3_ext _ (fun a => sum3 (fun b => sum3 (fun d => sum3 (fun e => entries F c a * entries S b d * dn e * (delta a b * delta d e)))))).
    + unfold sum3. rewrite !product_entries by lia. unfold sum3, delta. cbn [Nat.eqb]. ring.
    + intros a Ha. apply sum3_ext. intros b Hb. apply sum3_ext. intros d Hd. apply sum3_ext. intros e He. unfold q. rewrite !orthonormal by assumption. reflexivity.
  - intros k Hk. rewrite product_entries, Ed by assumption. f_equal. apply sum3_ext. intros l Hl. rewrite EF by assumption. f_equal.
    apply SC; [apply of_entries_matrix3|apply of_entries_matrix3|exact CG|exact Hl|exact Hk].
Qed.
End Rotation.

Lemma dL_sum_zero d g l : CanonicalDimension (kind d) = 3%nat -> In g (gauss_nodes (kind d)) -> (l < 3)%nat -> Rsum (map (fun a => entries (dL (kind d) (fst g)) a l) (seq 0 (NumberOfNodes (kind d)))) = 0.
Proof.
  intros C Hg Hl. rewrite <- (derivatives_sum_to_zero (kind d) (fst g) l); [|rewrite C; apply (gauss_position_length3 (kind d)); assumption|lia].
  rewrite (Rsum_nth (map (fun row => nth l row 0) (dL (kind d) (fst g)))), map_length, length_dL. apply Rsum_ext. intros a _. symmetry. apply (nth_column (dL (kind d) (fst g)) l a).
Qed.

Section Rest.
Context (m : material) (d : domain) (Q : list (list R)) (t : list R) (x : list (list R)) (N : nat).
Hypothesis Sd : solid d.
Hypothesis RG : regular d.
Hypothesis LN : length (positions d) = N.
Hypothesis HQ : rotation Q.
Hypothesis Lt : length t = 3%nat.
Let d' := moved d (rigid Q t (positions d)).
Let MQ : matrix3 Q := proj1 HQ.
Lemma rest_field : field N 3 (positions d). Proof. rewrite <- LN. apply Sd. Qed.
Lemma moved_rest_field : field N 3 (positions d'). Proof. apply CorotProofs3.rigid_field; [assumption|assumption|apply rest_field]. Qed.
Lemma moved_solid : solid d'.
Proof.
  destruct Sd as (W & Dm & F). split; [|split; [exact Dm|]].
  - unfold well_formed, d', moved in *. cbn [kind positions connectivity] in *. unfold rigid. rewrite map_length. exact W.
  - pose proof moved_rest_field as MF. unfold field in *. destruct MF as [L MF]. split; [reflexivity|exact MF].
Qed.
Lemma rest_turned row g i j : In row (connectivity d) -> In g (gauss_nodes (kind d)) -> (i < 3)%nat -> (j < 3)%nat -> entries (rest_J d' row g) i j = mul (entries Q) (entries (rest_J d row g)) i j.
Proof.
  intros Hr Hg Hi Hj. destruct (solid_row d row Sd Hr) as [Hl Hb]. rewrite LN in Hb. unfold mul, rest_J. change (kind d') with (kind d).
  change (nodes_of_element d' row) with (gather (rigid Q t (positions d)) row). change (nodes_of_element d row) with (gather (positions d) row).
  rewrite jacobian_entries, entries_of_entries by (first [assumption | apply Sd]). unfold sum3. rewrite !(jacobian_entries d row g) by (first [assumption | apply Sd]). rewrite !entries_of_entries by lia. unfold grad.
  rewrite (Rsum_ext _ _ (fun a => (entries Q i 0 * (entries (gather (positions d) row) a 0 * entries (dL (kind d) (fst g)) a j) + entries Q i 1 * (entries (gather (positions d) row) a 1 * entries (dL (kind d) (fst g)) a j) +
     entries Q i 2 * (entries (gather (positions d) row) a 2 * entries (dL (kind d) (fst g)) a j)) + nth i t 0 * entries (dL (kind d) (fst g)) a j)).
  - rewrite Rsum_plus, Rsum_scal_l. rewrite (dL_sum_zero d g) by (first [apply Sd | assumption]). rewrite !Rsum_plus, !Rsum_scal_l. ring.
  - intros a Ha. apply in_seq in Ha. rewrite !gather_entries by lia. assert (Hp : (nth a row 0 < N)%nat) by (apply (proj1 (Forall_forall _ _) Hb); apply nth_In; lia).
    rewrite (rigid_entries N) by (first [assumption | apply rest_field | lia]). unfold sum3. ring.
Qed.
Lemma rest_det row g : In row (connectivity d) -> In g (gauss_nodes (kind d)) -> det (rest_J d' row g) = det (rest_J d row g) /\ det (rest_J d row g) <> 0.
Proof.
  intros Hr Hg. destruct (solid_row d row Sd Hr) as [Hl Hb]. split.
  - rewrite !det_entries by (apply rest_J_matrix; first [exact Hl | apply Sd]). rewrite (det3_ext _ (mul (entries Q) (entries (rest_J d row g)))) by (intros; apply rest_turned; assumption).
    rewrite det3_mul, (det3_rotation Q HQ). ring.
  - exact (proj1 (Forall_forall _ _) (proj1 (Forall_forall _ _) RG row Hr) g Hg).
Qed.
Lemma node_turned row g a k : In row (connectivity d) -> In g (gauss_nodes (kind d)) -> (a < NumberOfNodes (kind d))%nat -> (k < 3)%nat ->
  entries (dN_dx (the_node d' row g)) a k = sum3 (fun l => entries Q k l * entries (dN_dx (the_node d row g)) a l).
Proof.
  intros Hr Hg Ha Hk. destruct (solid_row d row Sd Hr) as [Hl Hb]. destruct (rest_det row g Hr Hg) as [D NZ].
  rewrite (the_node_entries d' row g) by (first [assumption | apply Sd]). change (kind d') with (kind d).
  assert (I : forall c, (c < 3)%nat -> entries (inverse (rest_J d' row g)) c k = sum3 (fun l => entries (inverse (rest_J d row g)) c l * entries Q k l)).
  { intros c Hc. rewrite (inverse_entries (rest_J d' row g)), entries_of_entries by (first [assumption | apply rest_J_matrix; first [exact Hl | apply Sd]]).
    rewrite <- det_entries by (apply rest_J_matrix; first [exact Hl | apply Sd]). rewrite D.
    rewrite (adj_ext _ (mul (entries Q) (entries (rest_J d row g)))) by (first [assumption | intros; apply rest_turned; assumption]). rewrite adj_mul by assumption. unfold mul.
    rewrite (inverse_entries (rest_J d row g)) by (apply rest_J_matrix; first [exact Hl | apply Sd]).
    rewrite <- det_entries by (apply rest_J_matrix; first [exact Hl | apply Sd]). unfold sum3. rewrite !entries_of_entries by lia. rewrite !(adj_rotation Q HQ) by lia. unfold Rdiv. ring. }
  rewrite (sum3_ext _ (fun l => entries (dL (kind d) (fst g)) a l * sum3 (fun l' => entries (inverse (rest_J d row g)) l l' * entries Q k l'))) by (intros l Hl'; rewrite I by assumption; reflexivity).
  unfold sum3. rewrite !(the_node_entries d row g) by (first [assumption | apply Sd | lia]). unfold sum3. ring.
Qed.
Lemma element_forces_rest row a c : field N 3 x -> In row (connectivity d) -> (a < NumberOfNodes (kind d))%nat -> (c < 3)%nat ->
  entries (element_forces m (gather x row) (quad d' row)) a c = entries (element_forces m (gather x row) (quad d row)) a c.
Proof.
  intros Fx Hr Ha Hc. destruct (solid_row d row Sd Hr) as [Hl Hi].
  assert (G : length (gather x row) = NumberOfNodes (kind d)) by (unfold gather; rewrite map_length; exact Hl).
  destruct (element_forces_spec m (gather x row) (quad d' row) _ G (quad_sound d' row)) as (_ & _ & ->).
  destruct (element_forces_spec m (gather x row) (quad d row) _ G (quad_sound d row)) as (_ & _ & ->).
  unfold quad. rewrite !get_gauss_nodes_alt, !map_map. change (kind d') with (kind d). apply Rsum_ext. intros g Hg.
  destruct (gauss_forces_spec m (gather x row) _ _ G (the_node_sound d' row g)) as (_ & _ & ->); [|exact Ha|exact Hc].
  destruct (gauss_forces_spec m (gather x row) _ _ G (the_node_sound d row g)) as (_ & _ & ->); [|exact Ha|exact Hc].
  cbn [jacobian_determinant weight the_node]. rewrite (proj1 (rest_det row g Hr Hg)). f_equal.
  change (NumberOfNodes (kind d')) with (NumberOfNodes (kind d)).
  apply (power_turned Q HQ m _ _ (fun k => entries (dN_dx (the_node d row g)) a k) (fun k => entries (dN_dx (the_node d' row g)) a k) c); [apply of_entries_matrix3|apply of_entries_matrix3|exact Hc| |].
  - intros i j Hi' Hj'. rewrite entries_of_entries by assumption. unfold mul, tr_, sum3. rewrite !entries_of_entries by lia. unfold grad. rewrite <- !Rsum_scal_r, <- !Rsum_plus.
    apply Rsum_ext. intros b Hb. apply in_seq in Hb. rewrite node_turned by (first [assumption | lia]). unfold sum3. ring.
  - intros j Hj. apply node_turned; assumption.
Qed.
Lemma rest_forces f : field N 3 x -> field N 3 f -> addForce m d' x f = addForce m d x f.
Proof.
  intros Fx Ff. destruct (addForce_spec m d x f N (proj1 Sd) LN (proj1 Fx) Ff) as (f1 & -> & F1 & E1).
  destruct (addForce_spec m d' x f N (proj1 moved_solid) (proj1 moved_rest_field) (proj1 Fx) Ff) as (f2 & -> & F2 & E2).
  f_equal. apply (CorotProofs3.fields_equal N); [exact F2|exact F1|]. intros p c Hc. rewrite (E2 p c Hc), (E1 p c Hc). change (kind d') with (kind d). change (connectivity d') with (connectivity d). f_equal.
  apply Rsum_ext. intros row Hr. apply Rsum_ext. intros a Ha. apply in_seq in Ha. destruct (Nat.eqb _ p); [|reflexivity]. apply element_forces_rest; first [assumption | lia].
Qed.
End Rest.

(** The whole scene described in another frame. *)
Lemma scene_forces m d Q t x f N : solid d -> regular d -> length (positions d) = N -> rotation Q -> length t = 3%nat -> field N 3 x -> field N 3 f ->
  addForce m (moved d (rigid Q t (positions d))) (rigid Q t x) (turned Q f) = option_map (turned Q) (addForce m d x f).
Proof.
  intros Sd RG LN HQ Lt Fx Ff. rewrite (rest_forces m d Q t _ N) by (first [assumption | apply CorotProofs3.rigid_field; first [apply HQ | assumption] | apply turned_field; [apply HQ|apply Ff]]).
  apply (hyper_forces m d Q t x N); assumption.
Qed.
