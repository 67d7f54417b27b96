(** Proofs for C102: the elastic forces turn with the body. *)

From Coq Require Import ZArith Reals Lra Lia.
From Coquelicot Require Import Coquelicot.
From Coq Require Import List Arith Bool.
From Verif Require Import GridGeoModel ShapeModel ShapeSpec ShapeProofs ShapeFieldProofs LinAlg LinAlgProofs RectModel RectProofs BarycentricModel MappingSpec MappingProofs TensorModel TensorSpec
  MaterialModel MaterialSpec MaterialProofs MaterialProperties SparseModel SparseProofs Sums TractionModel TractionProofs HyperModel HyperSpec HyperProofs HyperProofs2 HyperProofs3 HyperProofs4 HyperProperties.
From Verif Require Import CorotSpec.
From Verif Require CorotModel CorotProofs CorotProofs2 CorotProofs3.
From Verif Require Import ObjectivitySpec.
Import ListNotations.
Open Scope R_scope.

Lemma turned_field N Q f : matrix3 Q -> length f = N -> field N 3 (turned Q f).
Proof.
  intros [LQ _] L. split; [unfold turned; rewrite map_length; exact L|]. apply Forall_forall. intros v Hv. apply in_map_iff in Hv. destruct Hv as (p & <- & _).
  rewrite matvec_length. exact LQ.
Qed.
Lemma turned_entries N Q f p c : matrix3 Q -> field N 3 f -> (c < 3)%nat -> entries (turned Q f) p c = sum3 (fun k => entries Q c k * entries f p k).
Proof.
  intros MQ [L F] Hc. unfold entries at 1. destruct (Nat.lt_ge_cases p (length f)) as [H|H].
  - unfold turned. rewrite (CorotProofs2.nth_map' _ _ (matvec Q) _ _ []) by exact H. apply CorotProofs2.matvec3; [exact MQ| |exact Hc].
    apply (proj1 (Forall_forall _ _) F). apply nth_In. exact H.
  - rewrite (nth_overflow (turned Q f)) by (unfold turned; rewrite map_length; exact H). unfold entries. rewrite (nth_overflow f) by exact H.
    assert (Z : forall k, nth k (@nil R) 0 = 0) by (intros [|k]; reflexivity). unfold sum3. rewrite !Z. ring.
Qed.
Lemma rigid_entries N Q t x p c : matrix3 Q -> length t = 3%nat -> field N 3 x -> (p < N)%nat -> (c < 3)%nat ->
  entries (rigid Q t x) p c = sum3 (fun k => entries Q c k * entries x p k) + nth c t 0.
Proof.
  intros MQ Lt Fx Hp Hc. unfold entries at 1, rigid. rewrite (CorotProofs2.nth_map' _ _ (fun p => vadd (matvec Q p) t) _ _ []) by (rewrite (proj1 Fx); exact Hp).
  pose proof (field_row N x p Fx Hp) as Lp.
  assert (V : forall a b k, length a = 3%nat -> length b = 3%nat -> nth k (vadd a b) 0 = nth k a 0 + nth k b 0).
  { intros a b k La Lb. destruct a as [|? [|? [|? [|] ] ] ]; try discriminate. destruct b as [|? [|? [|? [|] ] ] ]; try discriminate. destruct k as [|[|[|[|k] ] ] ]; cbn; ring. }
  rewrite V by (first [exact Lt | rewrite matvec_length; apply MQ]). f_equal. apply CorotProofs2.matvec3; assumption.
Qed.
Lemma of_entries_same f g : (forall i j, (i < 3)%nat -> (j < 3)%nat -> f i j = g i j) -> of_entries f = of_entries g.
Proof. intros H. unfold of_entries. apply map_ext_in. intros i Hi. apply map_ext_in. intros j Hj. apply in_seq in Hi, Hj. apply H; lia. Qed.
Lemma product_matrix A B : matrix3 (product A B). Proof. apply of_entries_matrix3. Qed.
Lemma product_entries A B i j : (i < 3)%nat -> (j < 3)%nat -> entries (product A B) i j = sum3 (fun k => entries A i k * entries B k j).
Proof. intros. unfold product. apply entries_of_entries; assumption. Qed.

(** ** Hyperelastic force fields *)

Section Hyper.
Context (m : material) (d : domain) (Q : list (list R)) (t : list R) (x : list (list R)) (N : nat).
Hypothesis Sd : solid d.
Hypothesis LN : length (positions d) = N.
Hypothesis HQ : rotation Q.
Hypothesis Lt : length t = 3%nat.
Hypothesis Fx : field N 3 x.
Let y := rigid Q t x.
Let MQ : matrix3 Q := proj1 HQ.

Lemma moved_field : field N 3 y. Proof. apply CorotProofs3.rigid_field; assumption. Qed.
Lemma gradient_moved row g : In row (connectivity d) -> In g (quad d row) -> gradient y row g = product Q (gradient x row g).
Proof.
  intros Hr Hg. destruct (solid_row d row Sd Hr) as [Hl Hi]. rewrite LN in Hi. destruct (quad_in d row g Hg) as (q & Hq & ->).
  unfold product. unfold gradient at 1. apply of_entries_same. intros i j Hi' Hj'. unfold sum3. rewrite !gradient_entries by lia. unfold grad.
  rewrite (Rsum_ext _ _ (fun a => (entries Q i 0 * (entries (gather x row) a 0 * entries (dN_dx (the_node d row q)) a j) + entries Q i 1 * (entries (gather x row) a 1 * entries (dN_dx (the_node d row q)) a j) +
     entries Q i 2 * (entries (gather x row) a 2 * entries (dN_dx (the_node d row q)) a j)) + nth i t 0 * entries (dN_dx (the_node d row q)) a j)).
  - rewrite Rsum_plus, Rsum_scal_l, Hl, (the_node_sum d row q) by (first [apply Sd | exact Hl | assumption | lia]).
    rewrite !Rsum_plus, !Rsum_scal_l. ring.
  - intros a Ha. apply in_seq in Ha. rewrite !gather_entries by lia. assert (Hp : (nth a row 0 < N)%nat) by (apply (proj1 (Forall_forall _ _) Hi); apply nth_In; lia).
    unfold y. rewrite (rigid_entries N) by (first [assumption | lia]). unfold sum3. ring.
Qed.
Lemma stress_turned F : matrix3 F -> stress_power m (product Q F) = product Q (stress_power m F).
Proof.
  intros MF. unfold stress_power. rewrite (proj2 (C54_objectivity m Q F HQ MF)). set (S := PK2_stress _ _ _). unfold product at 1 3.
  apply of_entries_same. intros i j Hi Hj. unfold sum3. rewrite !product_entries by lia. unfold sum3. ring.
Qed.
Lemma element_forces_turned row a c : In row (connectivity d) -> (a < length row)%nat -> (c < 3)%nat ->
  entries (element_forces m (gather y row) (quad d row)) a c = sum3 (fun k => entries Q c k * entries (element_forces m (gather x row) (quad d row)) a k).
Proof.
  intros Hr Ha Hc. destruct (solid_row d row Sd Hr) as [Hl Hi].
  assert (G : forall z, length (gather z row) = NumberOfNodes (kind d)) by (intros z; unfold gather; rewrite map_length; exact Hl).
  destruct (element_forces_spec m (gather y row) (quad d row) _ (G y) (quad_sound d row)) as (_ & _ & ->).
  destruct (element_forces_spec m (gather x row) (quad d row) _ (G x) (quad_sound d row)) as (_ & _ & E).
  unfold sum3. rewrite !E, <- !Rsum_scal_l, <- !Rsum_plus. apply Rsum_ext. intros g Hg. pose proof (proj1 (Forall_forall _ _) (quad_sound d row) g Hg) as Sg.
  destruct (gauss_forces_spec m (gather y row) g _ (G y) Sg) as (_ & _ & Ey). destruct (gauss_forces_spec m (gather x row) g _ (G x) Sg) as (_ & _ & Ex).
  rewrite Ey, !Ex by lia. rewrite <- Hl. fold (gradient y row g) (gradient x row g). rewrite (gradient_moved row g Hr Hg), stress_turned by apply gradient_matrix.
  unfold sum3. rewrite !product_entries by lia. unfold sum3. ring.
Qed.
Lemma hyper_forces f : field N 3 f -> addForce m d y (turned Q f) = option_map (turned Q) (addForce m d x f).
Proof.
  intros Ff. destruct (addForce_spec m d x f N (proj1 Sd) LN (proj1 Fx) Ff) as (f1 & -> & F1 & E1).
  destruct (addForce_spec m d y (turned Q f) N (proj1 Sd) LN (proj1 moved_field) (turned_field N Q f MQ (proj1 Ff))) as (f2 & -> & F2 & E2).
  cbn [option_map]. f_equal. apply (CorotProofs3.fields_equal N); [exact F2|apply turned_field; [exact MQ|apply F1]|]. intros p c Hc.
  rewrite (E2 p c Hc), !(turned_entries N) by assumption. unfold sum3. rewrite !E1 by lia.
  rewrite (Rsum_ext _ _ (fun row => entries Q c 0 * Rsum (map (fun a => if Nat.eqb (nth a row 0%nat) p then entries (element_forces m (gather x row) (quad d row)) a 0 else 0) (seq 0 (NumberOfNodes (kind d)))) +
     entries Q c 1 * Rsum (map (fun a => if Nat.eqb (nth a row 0%nat) p then entries (element_forces m (gather x row) (quad d row)) a 1 else 0) (seq 0 (NumberOfNodes (kind d)))) +
     entries Q c 2 * Rsum (map (fun a => if Nat.eqb (nth a row 0%nat) p then entries (element_forces m (gather x row) (quad d row)) a 2 else 0) (seq 0 (NumberOfNodes (kind d)))))).
  - rewrite !Rsum_plus, !Rsum_scal_l. ring.
  - intros row Hr. rewrite <- !Rsum_scal_l, <- !Rsum_plus. apply Rsum_ext. intros a Ha. apply in_seq in Ha. destruct (Nat.eqb _ p); [|ring].
    destruct (solid_row d row Sd Hr) as [Hl _]. rewrite element_forces_turned by (first [assumption | lia]). reflexivity.
Qed.
Lemma hyper_energy : regular d -> getPotentialEnergy m d y = getPotentialEnergy m d x.
Proof.
  intros RG. unfold getPotentialEnergy. rewrite (proj1 moved_field), (proj1 Fx), LN, Nat.eqb_refl. cbn [negb]. apply Rsum_ext. intros row Hr.
  destruct (solid_row d row Sd Hr) as [Hl Hi]. rewrite LN in Hi. pose proof (proj2 (proj2 Sd)) as F0. rewrite LN in F0.
  assert (E : forall z, field N 3 z -> _) by (intros z Fz; exact (element_energy_spec m d z row N (proj1 (proj2 Sd)) F0 Fz Hl Hi (proj1 (Forall_forall _ _) RG row Hr))).
  rewrite (E y moved_field), (E x Fx). apply Rsum_ext. intros g Hg. rewrite (gradient_moved row g Hr Hg).
  rewrite (proj1 (C54_objectivity m Q (gradient x row g) HQ (gradient_matrix x row g))). reflexivity.
Qed.

(** The tangent. *)
Lemma B_turned F da alpha i : matrix3 F -> (alpha < 6)%nat -> (i < 3)%nat -> entries (B (product Q F) da) alpha i = sum3 (fun k => entries Q i k * entries (B F da) alpha k).
Proof.
  intros MF Ha Hi. assert (P : forall a b, (a < 3)%nat -> (b < 3)%nat -> e (product Q F) a b = sum3 (fun k => entries Q a k * e F k b)).
  { intros a b Ha' Hb. exact (product_entries Q F a b Ha' Hb). }
  unfold B. unfold sum3 in P. rewrite !P by lia. unfold entries, sum3. 
  destruct alpha as [|[|[|[|[|[|] ] ] ] ] ]; try lia; destruct i as [|[|[|] ] ]; try lia; cbn [nth]; ring.
Qed.
Lemma gauss_block_turned row g a b i j : In row (connectivity d) -> In g (quad d row) -> (a < length row)%nat -> (b < length row)%nat -> (i < 3)%nat -> (j < 3)%nat ->
  entries (gauss_block m (gather y row) a b g) i j = sum3 (fun k => sum3 (fun l => entries Q i k * entries (gauss_block m (gather x row) a b g) k l * entries Q j l)).
Proof.
  intros Hr Hg Ha Hb Hi Hj. destruct (solid_row d row Sd Hr) as [Hl _]. pose proof (proj1 (Forall_forall _ _) (quad_sound d row) g Hg) as Sg. rewrite <- Hl in Sg.
  assert (G : forall z, length (gather z row) = length row) by (intros z; unfold gather; apply map_length).
  destruct (gauss_block_spec m (gather y row) g _ a b (G y) Sg Ha Hb) as (_ & Ey). destruct (gauss_block_spec m (gather x row) g _ a b (G x) Sg Ha Hb) as (_ & Ex).
  rewrite Ey by assumption. fold (gradient y row g) in *. fold (gradient x row g) in *. rewrite (gradient_moved row g Hr Hg).
  pose proof (gradient_matrix x row g) as MF. set (F := gradient x row g) in *.
  rewrite (proj2 (C54_objectivity m Q F HQ MF)). set (q := geometric _ _ _).
  assert (MB : material_block m (product Q F) (nth a (dN_dx g) []) (nth b (dN_dx g) []) i j =
    sum3 (fun k => sum3 (fun l => entries Q i k * material_block m F (nth a (dN_dx g) []) (nth b (dN_dx g) []) k l * entries Q j l))).
  { unfold material_block. rewrite cauchy_green_rotated, det_product by (first [assumption | apply HQ]). replace (det Q) with 1 by (symmetry; apply HQ). rewrite Rmult_1_l.
    set (D := PK2_stress_jacobian m (det F) (cauchy_green F)). unfold sum6. rewrite !B_turned by (first [assumption | lia]). unfold sum3. ring. }
  rewrite MB. unfold sum3. rewrite !Ex by lia. fold q.
  assert (O : sum3 (fun k => entries Q i k * entries Q j k) = delta i j).
  { destruct (CorotProofs.rotation_entries Q HQ) as (q0 & q1 & q2 & q3 & q4 & q5 & q6 & q7 & q8 & -> & A1 & A2 & A3 & A4 & A5 & A6 & C0 & C1 & C2 & C3 & C4 & C5 & C6 & C7 & C8).
    assert (D1 : det [[q0; q1; q2]; [q3; q4; q5]; [q6; q7; q8]] = 1) by apply HQ. unfold det in D1. cbn in D1.
    unfold sum3, entries, delta. destruct i as [|[|[|] ] ]; try lia; destruct j as [|[|[|] ] ]; try lia; cbn [nth Nat.eqb];
    first [ rewrite C0 at 1; rewrite C1 at 1; rewrite C2 at 1; lra | rewrite C3 at 1; rewrite C4 at 1; rewrite C5 at 1; lra | rewrite C6 at 1; rewrite C7 at 1; rewrite C8 at 1; lra
          | rewrite C0 at 1; rewrite C1 at 1; rewrite C2 at 1; ring | rewrite C3 at 1; rewrite C4 at 1; rewrite C5 at 1; ring | rewrite C6 at 1; rewrite C7 at 1; rewrite C8 at 1; ring ]. }
  rewrite <- O. unfold sum3, delta. cbn [Nat.eqb]. ring.
Qed.
Lemma block_turned row a b i j : In row (connectivity d) -> (a < length row)%nat -> (b < length row)%nat -> (i < 3)%nat -> (j < 3)%nat ->
  entries (block m d y row a b) i j = sum3 (fun k => sum3 (fun l => entries Q i k * entries (block m d x row a b) k l * entries Q j l)).
Proof.
  intros Hr Ha Hb Hi Hj. destruct (solid_row d row Sd Hr) as [Hl _]. unfold sum3. rewrite !block_spec by (first [exact Hl | lia]).
  rewrite <- !Rsum_scal_l, <- !Rsum_scal_r, <- !Rsum_plus. apply Rsum_ext. intros g Hg. rewrite (gauss_block_turned row g) by assumption. reflexivity.
Qed.
End Hyper.
