(** Proofs for C102: force increments, corotational force fields. *)

From Coq Require Import ZArith Reals Lra Lia.
From Coquelicot Require Import Coquelicot.
From Coq Require Import List Arith Bool.
From Verif Require Import GridGeoModel ShapeModel ShapeSpec ShapeProofs ShapeFieldProofs LinAlg LinAlgProofs RectModel RectProofs BarycentricModel MappingSpec MappingProofs TensorModel TensorSpec
  MaterialModel MaterialSpec MaterialProofs MaterialProperties SparseModel SparseProofs Sums TractionModel TractionProofs HyperModel HyperSpec HyperProofs HyperProofs2 HyperProofs3 HyperProofs4 HyperProperties EnergyProofs.
From Verif Require Import ObjectivitySpec ObjectivityProofs.
From Verif Require Import CorotModel CorotSpec CorotProofs CorotProofs2 CorotProofs3 CorotProofs4.
Import ListNotations.
Open Scope R_scope.

Lemma orthonormal Q l n : rotation Q -> (l < 3)%nat -> (n < 3)%nat -> sum3 (fun j => entries Q j l * entries Q j n) = delta l n.
Proof. intros (_ & O & _) Hl Hn. apply isometry_gram; assumption. Qed.
Lemma turned_product (q b : nat -> nat -> R) (v : nat -> R) c : (forall l n, (l < 3)%nat -> (n < 3)%nat -> sum3 (fun j => q j l * q j n) = delta l n) ->
  sum3 (fun j => sum3 (fun k => sum3 (fun l => q c k * b k l * q j l)) * sum3 (fun n => q j n * v n)) = sum3 (fun k => q c k * sum3 (fun l => b k l * v l)).
Proof.
  intros O. transitivity (sum3 (fun k => sum3 (fun l => sum3 (fun n => q c k * b k l * v n * sum3 (fun j => q j l * q j n))))); [unfold sum3; ring|].
  rewrite (sum3_ext _ (fun k => sum3 (fun l => sum3 (fun n => q c k * b k l * v n * delta l n)))).
  - unfold sum3, delta. cbn [Nat.eqb]. ring.
  - intros k Hk. apply sum3_ext. intros l Hl. apply sum3_ext. intros n Hn. rewrite O by assumption. reflexivity.
Qed.

Lemma sum3_expand (h : nat -> R) : sum3 h = h 0%nat + h 1%nat + h 2%nat.
Proof. reflexivity. Qed.

(** The list of N vectors with the given flat components. *)
Definition grouped (N : nat) (F : list R) : list (list R) := map (fun p => [nth (p * 3) F 0; nth (p * 3 + 1) F 0; nth (p * 3 + 2) F 0]) (seq 0 N).
Lemma grouped_field N F : field N 3 (grouped N F).
Proof. split; [unfold grouped; rewrite map_length; apply seq_length|]. apply Forall_forall. intros r Hr. apply in_map_iff in Hr. destruct Hr as (p & <- & _). reflexivity. Qed.
Lemma grouped_entries N F p c : (p < N)%nat -> (c < 3)%nat -> entries (grouped N F) p c = nth (p * 3 + c) F 0.
Proof.
  intros Hp Hc. unfold entries, grouped. rewrite (nth_map' _ _ (fun p => [nth (p * 3) F 0; nth (p * 3 + 1) F 0; nth (p * 3 + 2) F 0]) _ _ 0%nat) by (rewrite seq_length; exact Hp).
  rewrite seq_nth by exact Hp. cbn [Nat.add]. destruct c as [|[|[|] ] ]; try lia; cbn [nth]; [rewrite Nat.add_0_r|..]; reflexivity.
Qed.
Lemma flat_equal N F f : length F = (N * 3)%nat -> field N 3 f -> (forall p c, (p < N)%nat -> (c < 3)%nat -> nth (p * 3 + c) F 0 = entries f p c) -> F = concat f.
Proof.
  intros L [Lf Ff] H. apply (nth_ext _ _ 0 0); [rewrite concat_length3 by exact Ff; lia|]. intros i Hi.
  assert (Hp : (i / 3 < N)%nat) by (apply Nat.div_lt_upper_bound; lia). assert (Hc : (i mod 3 < 3)%nat) by (apply Nat.mod_upper_bound; lia).
  pose proof (Nat.div_mod i 3 ltac:(lia)) as E. replace i with (i / 3 * 3 + i mod 3)%nat by lia. rewrite H by assumption. rewrite concat_nth by assumption. reflexivity.
Qed.

Lemma hyper_increments m d Q t x N k v df : solid d -> distinct_nodes d -> length (positions d) = N -> rotation Q -> length t = 3%nat -> field N 3 x -> field N 3 v -> field N 3 df ->
  exists df', field N 3 df' /\
    HyperModel.addDForce (assemble_stiffness m d x) (N * 3) k (concat v) (concat df) = Some (concat df') /\
    HyperModel.addDForce (assemble_stiffness m d (rigid Q t x)) (N * 3) k (concat (turned Q v)) (concat (turned Q df)) = Some (concat (turned Q df')).
Proof.
  intros Sd ND LN HQ Lt Fx Fv Fd. pose proof (proj1 HQ) as MQ. set (y := rigid Q t x).
  assert (Ftv : field N 3 (turned Q v)) by (apply turned_field; [exact MQ|apply Fv]). assert (Ftd : field N 3 (turned Q df)) by (apply turned_field; [exact MQ|apply Fd]).
  assert (Lc : forall h, field N 3 h -> length (concat h) = (N * 3)%nat) by (intros h [L F]; rewrite concat_length3 by exact F; lia).
  destruct (HyperProofs4.addDForce_spec _ (N * 3) k (concat v) (concat df) (assemble_inside m d x N (proj1 Sd) LN) (Lc _ Fd)) as (D1 & E1 & L1 & P1).
  destruct (HyperProofs4.addDForce_spec _ (N * 3) k (concat (turned Q v)) (concat (turned Q df)) (assemble_inside m d y N (proj1 Sd) LN) (Lc _ Ftd)) as (D2 & E2 & L2 & P2).
  pose proof (grouped_field N D1) as F1. exists (grouped N D1). split; [exact F1|]. rewrite E1, E2. split; f_equal.
  - apply (flat_equal N); [exact L1|exact F1|]. intros p c Hp Hc. symmetry. apply grouped_entries; assumption.
  - apply (flat_equal N); [exact L2|apply turned_field; [exact MQ|apply F1]|]. intros p c Hp Hc. rewrite (turned_entries N) by assumption.
    rewrite P2, (operator_row m d y (turned Q v) N p c (proj1 Sd) ND Ftv Hc), concat_nth by (first [apply Ftd | assumption]). rewrite (turned_entries N) by assumption.
    rewrite (sum3_ext (fun j => entries Q c j * entries (grouped N D1) p j) (fun j => entries Q c j * nth (p * 3 + j) D1 0)) by (intros j Hj; rewrite grouped_entries by assumption; reflexivity).
    rewrite (sum3_expand (fun j => entries Q c j * nth (p * 3 + j) D1 0)), (sum3_expand (fun j => entries Q c j * entries df p j)).
    rewrite !P1, !(operator_row m d x v N p _ (proj1 Sd) ND Fv) by lia. rewrite !concat_nth by (first [apply Fd | lia]).
    set (S := fun i row => Rsum (map (fun a => if Nat.eqb (nth a row 0%nat) p then Rsum (map (fun b => sum3 (fun l => entries (block m d x row a b) i l * entries v (nth b row 0%nat) l)) (seq 0 (length row))) else 0)
      (seq 0 (length row)))).
    rewrite (Rsum_ext _ _ (fun row => entries Q c 0 * S 0%nat row + entries Q c 1 * S 1%nat row + entries Q c 2 * S 2%nat row)).
    + rewrite !Rsum_plus, !Rsum_scal_l. unfold S. cbv beta. ring.
    + intros row Hr. unfold S. rewrite <- !Rsum_scal_l, <- !Rsum_plus. apply Rsum_ext. intros a Ha. apply in_seq in Ha. destruct (Nat.eqb _ p); [|ring].
      rewrite <- !Rsum_scal_l, <- !Rsum_plus. apply Rsum_ext. intros b Hb. apply in_seq in Hb.
      rewrite (sum3_ext _ (fun j => sum3 (fun k => sum3 (fun l => entries Q c k * entries (block m d x row a b) k l * entries Q j l)) * sum3 (fun n => entries Q j n * entries v (nth b row 0%nat) n))).
      * rewrite turned_product by (intros; apply orthonormal; assumption). unfold sum3. ring.
      * intros j Hj. rewrite (block_turned m d Q t x N) by (first [assumption | lia]). rewrite (turned_entries N) by assumption. reflexivity.
Qed.

(** ** Corotational force fields *)

Lemma local_force_shift E nu gs n u (w : nat -> R) i k : Forall (balanced n) gs -> (k < 3)%nat -> local_force E nu gs n (fun j l => u j l + w l) i k = local_force E nu gs n u i k.
Proof.
  intros HB Hk. transitivity (local_force E nu gs n u i k + local_force E nu gs n (fun _ l => w l) i k); [|rewrite local_force_constant by assumption; ring].
  unfold local_force. rewrite <- Rsum_plus. apply Rsum_ext. intros j _. unfold sum3. ring.
Qed.
Lemma matmul_entries A B i j : matrix3 A -> matrix3 B -> (i < 3)%nat -> (j < 3)%nat -> entries (matmul 3 A B) i j = sum3 (fun k => entries A i k * entries B k j).
Proof.
  intros MA MB Hi Hj. destruct (matrix3_cases A MA) as (a0 & a1 & a2 & a3 & a4 & a5 & a6 & a7 & a8 & ->). destruct (matrix3_cases B MB) as (b0 & b1 & b2 & b3 & b4 & b5 & b6 & b7 & b8 & ->).
  unfold matmul, column, vdot, sum3, entries. destruct i as [|[|[|] ] ]; try lia; destruct j as [|[|[|] ] ]; try lia; cbn; ring.
Qed.
(** The displacement in the turned frame is the same up to a translation. *)
Lemma udisp_turned N Q t R0 R1 X x row j k : rotation Q -> length t = 3%nat -> matrix3 R1 -> field N 3 x -> (nth j row 0 < N)%nat -> (k < 3)%nat ->
  udisp R0 (matmul 3 Q R1) X (rigid Q t x) row j k = udisp R0 R1 X x row j k + sum3 (fun l => entries (matmul 3 Q R1) l k * nth l t 0).
Proof.
  intros HQ Lt M1 Fx Hp Hk. unfold udisp. pose proof (proj1 HQ) as MQ.
  assert (T : sum3 (fun l => entries (matmul 3 Q R1) l k * entries (rigid Q t x) (nth j row 0%nat) l) =
    sum3 (fun l => entries R1 l k * entries x (nth j row 0%nat) l) + sum3 (fun l => entries (matmul 3 Q R1) l k * nth l t 0)).
  { rewrite (sum3_ext _ (fun l => sum3 (fun a => entries Q l a * entries R1 a k) * sum3 (fun b => entries Q l b * entries x (nth j row 0%nat) b) + entries (matmul 3 Q R1) l k * nth l t 0)).
    - transitivity (sum3 (fun a => sum3 (fun b => entries R1 a k * entries x (nth j row 0%nat) b * sum3 (fun l => entries Q l a * entries Q l b))) + sum3 (fun l => entries (matmul 3 Q R1) l k * nth l t 0)); [unfold sum3; ring|].
      f_equal. rewrite (sum3_ext _ (fun a => sum3 (fun b => entries R1 a k * entries x (nth j row 0%nat) b * delta a b))).
      + unfold sum3, delta. cbn [Nat.eqb]. ring.
      + intros a Ha. apply sum3_ext. intros b Hb. rewrite orthonormal by assumption. reflexivity.
    - intros l Hl. rewrite (rigid_entries N) by assumption. rewrite <- (matmul_entries Q R1 l k) by assumption. ring. }
  rewrite T. ring.
Qed.
Lemma uincr_turned N Q R1 v row j k : rotation Q -> matrix3 R1 -> field N 3 v -> (k < 3)%nat -> uincr (matmul 3 Q R1) (turned Q v) row j k = uincr R1 v row j k.
Proof.
  intros HQ M1 Fv Hk. unfold uincr. pose proof (proj1 HQ) as MQ.
  rewrite (sum3_ext _ (fun l => sum3 (fun a => entries Q l a * entries R1 a k) * sum3 (fun b => entries Q l b * entries v (nth j row 0%nat) b))).
  - transitivity (sum3 (fun a => sum3 (fun b => entries R1 a k * entries v (nth j row 0%nat) b * sum3 (fun l => entries Q l a * entries Q l b)))); [unfold sum3; ring|].
    rewrite (sum3_ext _ (fun a => sum3 (fun b => entries R1 a k * entries v (nth j row 0%nat) b * delta a b))).
    + unfold sum3, delta. cbn [Nat.eqb]. ring.
    + intros a Ha. apply sum3_ext. intros b Hb. rewrite orthonormal by assumption. reflexivity.
  - intros l Hl. rewrite (turned_entries N), matmul_entries by assumption. reflexivity.
Qed.

Section Corot.
Context (m : mesh) (Q : list (list R)) (t : list R) (x : list (list R)).
Let N := length (x0 m).
Hypothesis VM : valid_mesh m.
Hypothesis HQ : rotation Q.
Hypothesis Lt : length t = 3%nat.
Hypothesis Fx : field N 3 x.
Let y := rigid Q t x.
Let MQ : matrix3 Q := proj1 HQ.

Lemma frames_turned s e : corotated s = true -> (e < length (elements m))%nat ->
  nth e (rotations_after m s y) [] = matmul 3 Q (nth e (rotations_after m s x) []) /\ matrix3 (nth e (rotations_after m s x) []).
Proof.
  intros C He. unfold rotations_after. rewrite C. rewrite !(nth_map' _ _ (fun row => frame (type m) (gather _ row)) _ _ []) by exact He.
  destruct (valid_row m e VM He) as [Lr Fr]. unfold row_of_element in *. split; [|apply frame_matrix]. unfold y. rewrite (gather_rigid N) by assumption.
  apply frame_rigid; [exact HQ|exact Lt|apply (gather_lengths N); assumption|unfold gather; rewrite map_length; exact Lr].
Qed.
Lemma corot_forces s f : reached m s -> corotated s = true -> field N 3 f -> snd (addForce m s y (turned Q f)) = option_map (turned Q) (snd (addForce m s x f)).
Proof.
  intros RE C Ff. destruct RE as [V|(E & nu & IN)]; [rewrite !addForce_virgin by assumption; reflexivity|].
  assert (Fy : field N 3 y) by (apply CorotProofs3.rigid_field; assumption).
  assert (Ftf : field N 3 (turned Q f)) by (apply turned_field; [exact MQ|apply Ff]).
  destruct (addForce_spec m s E nu x f N VM eq_refl IN Fx Ff) as (f1 & -> & F1 & E1). destruct (addForce_spec m s E nu y (turned Q f) N VM eq_refl IN Fy Ftf) as (f2 & -> & F2 & E2).
  cbn [option_map]. f_equal. apply (fields_equal N); [exact F2|apply turned_field; [exact MQ|apply F1]|]. intros p c Hc.
  rewrite (E2 p c Hc), !(turned_entries N) by assumption. unfold sum3. rewrite !E1 by lia.
  set (S := fun i e => Rsum (map (fun a => if Nat.eqb (nth a (row_of_element m e) 0%nat) p then corot_force m s E nu (fun e => nth e (rotations_after m s x) []) x e a i else 0) (seq 0 (nn m)))).
  rewrite (Rsum_ext _ _ (fun e => entries Q c 0 * S 0%nat e + entries Q c 1 * S 1%nat e + entries Q c 2 * S 2%nat e)).
  - rewrite !Rsum_plus, !Rsum_scal_l. unfold S. cbv beta. ring.
  - intros e He. apply in_seq in He. unfold S. rewrite <- !Rsum_scal_l, <- !Rsum_plus. apply Rsum_ext. intros a Ha. apply in_seq in Ha. destruct (Nat.eqb _ p); [|ring].
    destruct (frames_turned s e C ltac:(lia)) as [FT M1]. destruct (valid_row m e VM ltac:(lia)) as [Lr Fr]. destruct (initialised_element m s E nu e IN ltac:(lia)) as (_ & Hb & _).
    unfold corot_force. rewrite FT. set (R1 := nth e (rotations_after m s x) []) in *.
    set (w := fun k => sum3 (fun l => entries (matmul 3 Q R1) l k * nth l t 0)).
    assert (L : forall k, (k < 3)%nat -> local_force E nu (quad_of s e) (nn m) (udisp (R0_of s e) (matmul 3 Q R1) (x0 m) y (row_of_element m e)) a k =
      local_force E nu (quad_of s e) (nn m) (udisp (R0_of s e) R1 (x0 m) x (row_of_element m e)) a k).
    { intros k Hk. rewrite (local_force_linear E nu _ _ _ (fun j k => udisp (R0_of s e) R1 (x0 m) x (row_of_element m e) j k + w k)).
      - apply local_force_shift; assumption.
      - intros j k' Hj Hk'. apply (udisp_turned N); try assumption. apply (proj1 (Forall_forall _ _) Fr). apply nth_In. rewrite Lr. exact Hj. }
    unfold sum3. rewrite !L by lia. rewrite !matmul_entries by (first [assumption | lia]). unfold sum3. ring.
Qed.
(** Without the option, the forces do not feel a translation. *)
Lemma translated_forces s f : reached m s -> corotated s = false -> field N 3 f -> snd (addForce m s (rigid Id3 t x) f) = snd (addForce m s x f).
Proof.
  intros RE C Ff. destruct RE as [V|(E & nu & IN)]; [rewrite !addForce_virgin by assumption; reflexivity|].
  assert (Fy : field N 3 (rigid Id3 t x)) by (apply CorotProofs3.rigid_field; [apply Id3_matrix|assumption|assumption]).
  destruct (addForce_spec m s E nu x f N VM eq_refl IN Fx Ff) as (f1 & -> & F1 & E1). destruct (addForce_spec m s E nu (rigid Id3 t x) f N VM eq_refl IN Fy Ff) as (f2 & -> & F2 & E2).
  f_equal. apply (fields_equal N); [exact F2|exact F1|]. intros p c Hc. rewrite (E2 p c Hc), (E1 p c Hc). f_equal. apply Rsum_ext. intros e He. apply in_seq in He.
  apply Rsum_ext. intros a Ha. destruct (Nat.eqb _ p); [|reflexivity]. unfold rotations_after. rewrite C. unfold corot_force. apply sum3_ext. intros k Hk. f_equal.
  destruct (valid_row m e VM ltac:(lia)) as [Lr Fr]. destruct (initialised_element m s E nu e IN ltac:(lia)) as (_ & Hb & _).
  rewrite (local_force_linear E nu _ _ _ (fun j k => udisp (R0_of s e) (nth e (p_current_rotation s) []) (x0 m) x (row_of_element m e) j k + sum3 (fun l => entries (nth e (p_current_rotation s) []) l k * nth l t 0))).
  - apply local_force_shift; assumption.
  - intros j k' Hj Hk'. unfold udisp. assert (Hp : (nth j (row_of_element m e) 0 < N)%nat) by (apply (proj1 (Forall_forall _ _) Fr); apply nth_In; rewrite Lr; exact Hj).
    unfold sum3. rewrite !(rigid_entries N) by (first [apply Id3_matrix | assumption | lia]). unfold sum3, entries, Id3. cbn [nth]. ring.
Qed.
Lemma corot_increments s f f' k v df : reached m s -> corotated s = true -> field N 3 v -> field N 3 df ->
  addDForce m (fst (addForce m s y f)) k (turned Q v) (turned Q df) = option_map (turned Q) (addDForce m (fst (addForce m s x f')) k v df).
Proof.
  intros RE C Fv Fd. assert (Ftv : field N 3 (turned Q v)) by (apply turned_field; [exact MQ|apply Fv]). assert (Ftd : field N 3 (turned Q df)) by (apply turned_field; [exact MQ|apply Fd]).
  destruct RE as [(Vq & Vk & _)|(E & nu & IN)].
  { assert (A : forall z h, fst (addForce m s z h) = s).
    { intros z h. unfold addForce. rewrite Vk. destruct VM as [NE _]. destruct (elements m); [contradiction|reflexivity]. }
    rewrite !A. unfold addDForce. rewrite Vk. destruct VM as [NE _]. destruct (elements m); [contradiction|reflexivity]. }
  pose proof IN as (Lq & Ek & Fq & I0 & I1).
  assert (LK : length (p_stiffness_matrices s) = length (elements m)) by (rewrite Ek, map_length; exact Lq).
  assert (A : forall z h, p_quadrature_nodes (fst (addForce m s z h)) = p_quadrature_nodes s /\ p_stiffness_matrices (fst (addForce m s z h)) = p_stiffness_matrices s /\
     p_initial_rotation (fst (addForce m s z h)) = p_initial_rotation s /\ p_current_rotation (fst (addForce m s z h)) = rotations_after m s z).
  { intros z h. unfold addForce. rewrite LK, Nat.eqb_refl. cbn [negb fst]. repeat split. }
  assert (IN' : forall z h, initialised m (fst (addForce m s z h)) E nu).
  { intros z h. destruct (A z h) as (A1 & A2 & A3 & A4). unfold initialised. rewrite A1, A2, A3, A4. split; [exact Lq|]. split; [exact Ek|]. split; [exact Fq|]. split; [exact I0|].
    exact (rotations_after_spec m s E nu z IN). }
  destruct (CorotProofs2.addDForce_spec m _ E nu k v df N VM eq_refl (IN' x f') Fv Fd) as (f1 & -> & F1 & E1).
  destruct (CorotProofs2.addDForce_spec m _ E nu k (turned Q v) (turned Q df) N VM eq_refl (IN' y f) Ftv Ftd) as (f2 & -> & F2 & E2).
  cbn [option_map]. f_equal. apply (fields_equal N); [exact F2|apply turned_field; [exact MQ|apply F1]|]. intros p c Hc.
  rewrite (E2 p c Hc), !(turned_entries N) by assumption. unfold sum3. rewrite !E1 by lia.
  set (S := fun i e => Rsum (map (fun a => if Nat.eqb (nth a (row_of_element m e) 0%nat) p then corot_dforce m (fst (addForce m s x f')) E nu k v e a i else 0) (seq 0 (nn m)))).
  rewrite (Rsum_ext _ _ (fun e => entries Q c 0 * S 0%nat e + entries Q c 1 * S 1%nat e + entries Q c 2 * S 2%nat e)).
  - rewrite !Rsum_plus, !Rsum_scal_l. unfold S. cbv beta. ring.
  - intros e He. apply in_seq in He. unfold S. rewrite <- !Rsum_scal_l, <- !Rsum_plus. apply Rsum_ext. intros a Ha. apply in_seq in Ha. destruct (Nat.eqb _ p); [|ring].
    destruct (frames_turned s e C ltac:(lia)) as [FT M1]. unfold corot_dforce, R1_of, quad_of.
    destruct (A y f) as (-> & _ & _ & ->). destruct (A x f') as (-> & _ & _ & ->). rewrite FT. set (R1 := nth e (rotations_after m s x) []) in *.
    assert (L : forall i, (i < 3)%nat -> local_force E nu (nth e (p_quadrature_nodes s) []) (nn m) (uincr (matmul 3 Q R1) (turned Q v) (row_of_element m e)) a i =
      local_force E nu (nth e (p_quadrature_nodes s) []) (nn m) (uincr R1 v (row_of_element m e)) a i).
    { intros i Hi. apply local_force_linear. intros j k' Hj Hk'. apply (uincr_turned N); assumption. }
    unfold sum3. rewrite !L by lia. rewrite !matmul_entries by (first [assumption | lia]). unfold sum3. ring.
Qed.
End Corot.
