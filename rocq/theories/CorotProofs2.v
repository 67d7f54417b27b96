From Coq Require Import ZArith Reals Lra Lia.
From Coquelicot Require Import Coquelicot.
From Coq Require Import List Arith Bool.
From Verif Require Import GridGeoModel ShapeModel ShapeSpec ShapeProofs ShapeFieldProofs LinAlg LinAlgProofs RectModel RectProofs BarycentricModel MappingSpec MappingProofs TensorModel TensorSpec
  MaterialModel MaterialSpec MaterialProofs MaterialProperties SparseModel SparseProofs Sums TractionModel TractionProofs HyperModel HyperSpec HyperProofs HyperProofs2 HyperProofs3 HyperProofs4 CorotModel CorotSpec CorotProofs.
Import ListNotations.
Open Scope R_scope.

(** ** Lists *)

Lemma map2_nth_seq (A B C : Type) (f : A -> B -> C) da db : forall a b, length a = length b ->
  map2 f a b = map (fun i => f (nth i a da) (nth i b db)) (seq 0 (length a)).
Proof.
  induction a as [|x a IH]; intros [|y b] H; try discriminate; [reflexivity|].
  cbn [map2 length seq map nth]. f_equal. rewrite <- seq_shift, map_map. apply IH. simpl in H. lia.
Qed.
Lemma combine_nth' (A B : Type) (a : list A) (b : list B) da db i : length a = length b -> nth i (combine a b) (da, db) = (nth i a da, nth i b db).
Proof. intros H. apply combine_nth. exact H. Qed.
Lemma nth_map' (A B : Type) (f : A -> B) l i da db : (i < length l)%nat -> nth i (map f l) db = f (nth i l da).
Proof. intros H. rewrite (nth_indep _ db (f da)) by (rewrite map_length; exact H). apply map_nth. Qed.
Lemma concat_map' (A B : Type) (f : A -> list B) l : concat (map f l) = flat_map f l.
Proof. symmetry. apply flat_map_concat_map. Qed.

(** ** 3x3 matrices times vectors *)

Lemma matvec3 M v c : matrix3 M -> length v = 3%nat -> (c < 3)%nat -> nth c (matvec M v) 0 = sum3 (fun k => entries M c k * nth k v 0).
Proof.
  intros HM Lv Hc. destruct (matrix3_cases M HM) as (? & ? & ? & ? & ? & ? & ? & ? & ? & ->). destruct (len3 _ _ Lv) as (? & ? & ? & ->).
  unfold matvec, vdot, sum3, entries. destruct c as [|[|[|]]]; try lia; cbn; ring.
Qed.
Lemma matvec3_transpose M v c : matrix3 M -> length v = 3%nat -> (c < 3)%nat -> nth c (matvec (transpose 3 M) v) 0 = sum3 (fun k => entries M k c * nth k v 0).
Proof.
  intros HM Lv Hc. destruct (matrix3_cases M HM) as (? & ? & ? & ? & ? & ? & ? & ? & ? & ->). destruct (len3 _ _ Lv) as (? & ? & ? & ->).
  unfold matvec, transpose, column, vdot, sum3, entries. destruct c as [|[|[|]]]; try lia; cbn; ring.
Qed.
Lemma transpose_length M v : length (matvec (transpose 3 M) v) = 3%nat.
Proof. reflexivity. Qed.

(** ** Initialised states *)

Definition nn (m : mesh) : nat := NumberOfNodes (kind_of_elements (type m)).
Definition initialised (m : mesh) (s : state) (E nu : R) : Prop :=
  let ne := length (elements m) in
  length (p_quadrature_nodes s) = ne /\
  p_stiffness_matrices s = map (element_stiffness (hooke E nu) (nn m)) (p_quadrature_nodes s) /\
  Forall (Forall (balanced (nn m))) (p_quadrature_nodes s) /\
  (length (p_initial_rotation s) = ne /\ Forall matrix3 (p_initial_rotation s)) /\
  (length (p_current_rotation s) = ne /\ Forall matrix3 (p_current_rotation s)).

Definition row_of_element (m : mesh) (e : nat) : list nat := nth e (elements m) [].
Definition quad_of (s : state) (e : nat) : list gauss_node := nth e (p_quadrature_nodes s) [].
Definition R0_of (s : state) (e : nat) : list (list R) := nth e (p_initial_rotation s) [].
Definition R1_of (s : state) (e : nat) : list (list R) := nth e (p_current_rotation s) [].
Definition stiff_of (s : state) (e : nat) : list (list R) := nth e (p_stiffness_matrices s) [].

Lemma valid_row m e : valid_mesh m -> (e < length (elements m))%nat ->
  length (row_of_element m e) = nn m /\ Forall (fun i => (i < length (x0 m))%nat) (row_of_element m e).
Proof.
  intros (_ & _ & F) He. pose proof (proj1 (Forall_forall _ _) F (row_of_element m e) (nth_In _ _ He)) as (A & B & _). split; assumption.
Qed.
Lemma frame_matrix k nodes : matrix3 (frame k nodes).
Proof. destruct k; (split; [reflexivity|repeat constructor]). Qed.

Definition rotations_after (m : mesh) (s : state) (x : list (list R)) : list (list (list R)) :=
  if corotated s then map (fun row => frame (type m) (gather x row)) (elements m) else p_current_rotation s.

Lemma in_elements m row : valid_mesh m -> In row (elements m) -> length row = nn m /\ Forall (fun i => (i < length (x0 m))%nat) row.
Proof. intros (_ & _ & F) Hr. destruct (proj1 (Forall_forall _ _) F row Hr) as (A & B & _). split; assumption. Qed.

(** What is added at a node when the element e contributes G e a at its local node a. *)
Lemma scatter_all m (F : nat -> list R) (R1 : nat -> list (list R)) (G : nat -> nat -> nat -> R) f N :
  valid_mesh m -> length (x0 m) = N -> field N 3 f ->
  (forall e, (e < length (elements m))%nat -> matrix3 (R1 e)) ->
  (forall e a c, (e < length (elements m))%nat -> (a < nn m)%nat -> (c < 3)%nat -> sum3 (fun k => entries (R1 e) c k * nth (a * 3 + k) (F e) 0) = G e a c) ->
  exists f', add_all f (flat_map (fun e => scatter (R1 e) (F e) (row_of_element m e)) (seq 0 (length (elements m)))) = Some f' /\
    field N 3 f' /\
    forall p c, (c < 3)%nat -> entries f' p c = entries f p c -
      Rsum (map (fun e => Rsum (map (fun a => if Nat.eqb (nth a (row_of_element m e) 0%nat) p then G e a c else 0) (seq 0 (nn m)))) (seq 0 (length (elements m)))).
Proof.
  intros VM LN [Lf Ff] HR HG.
  assert (SC : forall e, (e < length (elements m))%nat -> scatter (R1 e) (F e) (row_of_element m e) =
     map (fun a => (nth a (row_of_element m e) 0%nat, map Ropp (matvec (R1 e) [nth (a * 3) (F e) 0; nth (a * 3 + 1) (F e) 0; nth (a * 3 + 2) (F e) 0]))) (seq 0 (nn m))).
  { intros e He. destruct (valid_row m e VM He) as [Lr _]. unfold scatter.
    rewrite (map2_nth_seq _ _ _ _ 0%nat 0%nat) by (rewrite seq_length; reflexivity). rewrite Lr.
    apply map_ext_in. intros a Ha. apply in_seq in Ha. rewrite seq_nth by lia. reflexivity. }
  destruct (add_all_spec (flat_map (fun e => scatter (R1 e) (F e) (row_of_element m e)) (seq 0 (length (elements m)))) f 3) as (f' & E & Ff' & V).
  - apply Forall_forall. intros [p v] H. apply in_flat_map in H. destruct H as (e & He & H). apply in_seq in He.
    rewrite SC in H by lia. apply in_map_iff in H. destruct H as (a & H & Ha). injection H as <- <-. apply in_seq in Ha. cbn [fst snd].
    destruct (valid_row m e VM ltac:(lia)) as [Lr Fr]. split.
    + rewrite Lf, <- LN. apply (proj1 (Forall_forall _ _) Fr). apply nth_In. lia.
    + rewrite map_length, matvec_length. apply (HR e). lia.
  - exact Ff.
  - exists f'. split; [exact E|]. split; [rewrite <- Lf; exact Ff'|]. intros p c Hc. unfold entries at 1. rewrite V. unfold entries at 1. unfold Rminus. f_equal.
    rewrite Rsum_flat_map, <- Rsum_opp. apply Rsum_ext. intros e He. apply in_seq in He. rewrite SC by lia. rewrite map_map, <- Rsum_opp.
    apply Rsum_ext. intros a Ha. apply in_seq in Ha. cbn [fst snd]. destruct (Nat.eqb _ p); [|ring].
    rewrite <- (HG e a c) by lia. rewrite (nth_map' _ _ Ropp _ _ 0) by (rewrite matvec_length; destruct (HR e ltac:(lia)) as [-> _]; exact Hc).
    rewrite matvec3 by (reflexivity || exact Hc || (apply HR; lia)). f_equal. apply sum3_ext. intros k Hk.
    destruct k as [|[|[|]]]; try lia; [rewrite Nat.add_0_r|..]; reflexivity.
Qed.

(** Displacement of the local node j in the frame of the element. *)
Definition udisp (R0 R1 x0 x : list (list R)) (row : list nat) (j k : nat) : R :=
  sum3 (fun l => entries R1 l k * entries x (nth j row 0%nat) l) - sum3 (fun l => entries R0 l k * entries x0 (nth j row 0%nat) l).
Definition uincr (R1 dx : list (list R)) (row : list nat) (j k : nat) : R := sum3 (fun l => entries R1 l k * entries dx (nth j row 0%nat) l).

Lemma field_row N x p : field N 3 x -> (p < N)%nat -> length (nth p x []) = 3%nat.
Proof. intros [L F] H. apply (proj1 (Forall_forall _ _) F). apply nth_In. lia. Qed.

Lemma flat_map3_in (f : nat -> list R) l j k : (forall a, In a l -> length (f a) = 3%nat) -> (k < 3)%nat -> (j < length l)%nat ->
  nth (j * 3 + k) (flat_map f l) 0 = nth k (f (nth j l 0%nat)) 0 /\ length (flat_map f l) = (length l * 3)%nat.
Proof.
  intros H Hk. revert j. induction l as [|a l IH]; intros j Hj; [simpl in Hj; lia|]. cbn [flat_map length].
  assert (La : length (f a) = 3%nat) by (apply H; left; reflexivity).
  assert (Hl : length (flat_map f l) = (length l * 3)%nat).
  { clear - H. assert (H' : forall b, In b l -> length (f b) = 3%nat) by (intros; apply H; right; assumption). clear H.
    induction l as [|b l IH]; [reflexivity|]. cbn [flat_map length]. rewrite app_length, H', IH by (intros; try apply H'; simpl; auto). lia. }
  split; [|rewrite app_length, La, Hl; lia]. destruct j as [|j].
  - rewrite app_nth1 by lia. reflexivity.
  - rewrite app_nth2 by lia. rewrite La. replace (S j * 3 + k - 3)%nat with (j * 3 + k)%nat by lia.
    apply IH; [intros b Hb; apply H; right; exact Hb|simpl in Hj; lia].
Qed.

Lemma local_displacement_entries N R0 R1 X x row j k : matrix3 R0 -> matrix3 R1 -> field N 3 X -> field N 3 x -> Forall (fun i => (i < N)%nat) row ->
  (j < length row)%nat -> (k < 3)%nat ->
  nth (j * 3 + k) (local_displacement R0 R1 X x row) 0 = udisp R0 R1 X x row j k /\ length (local_displacement R0 R1 X x row) = (length row * 3)%nat.
Proof.
  intros M0 M1 FX Fx Fr Hj Hk. unfold local_displacement.
  match goal with |- nth _ (flat_map ?f row) 0 = _ /\ _ => destruct (flat_map3_in f row j k) as [-> ->]; [|exact Hk|exact Hj|] end.
  { intros a _. unfold vminus. rewrite map2_combine, map_length, combine_length. reflexivity. }
  split; [|reflexivity]. assert (Hr : (nth j row 0 < N)%nat) by (apply (proj1 (Forall_forall _ _) Fr); apply nth_In; exact Hj).
  pose proof (matvec3_transpose R1 (nth (nth j row 0%nat) x []) k M1 (field_row N x _ Fx Hr) Hk) as E1.
  pose proof (matvec3_transpose R0 (nth (nth j row 0%nat) X []) k M0 (field_row N X _ FX Hr) Hk) as E0.
  unfold udisp. change (sum3 _ - sum3 _) with (sum3 (fun l => entries R1 l k * nth l (nth (nth j row 0%nat) x []) 0) - sum3 (fun l => entries R0 l k * nth l (nth (nth j row 0%nat) X []) 0)).
  rewrite <- E1, <- E0. unfold matvec, transpose, vminus. cbn [seq map map2]. destruct k as [|[|[|]]]; try lia; reflexivity.
Qed.
Lemma local_increment_entries N R1 x row j k : matrix3 R1 -> field N 3 x -> Forall (fun i => (i < N)%nat) row ->
  (j < length row)%nat -> (k < 3)%nat ->
  nth (j * 3 + k) (local_increment R1 x row) 0 = uincr R1 x row j k /\ length (local_increment R1 x row) = (length row * 3)%nat.
Proof.
  intros M1 Fx Fr Hj Hk. unfold local_increment.
  match goal with |- nth _ (flat_map ?f row) 0 = _ /\ _ => destruct (flat_map3_in f row j k) as [-> ->]; [|exact Hk|exact Hj|] end.
  { intros a _. reflexivity. }
  split; [|reflexivity]. assert (Hr : (nth j row 0 < N)%nat) by (apply (proj1 (Forall_forall _ _) Fr); apply nth_In; exact Hj).
  exact (matvec3_transpose R1 (nth (nth j row 0%nat) x []) k M1 (field_row N x _ Fx Hr) Hk).
Qed.

Lemma nn_pos m : (0 < nn m)%nat.
Proof. unfold nn. destruct (type m); simpl; lia. Qed.

Lemma nth_Forall (A : Type) (P : A -> Prop) l i d : Forall P l -> (i < length l)%nat -> P (nth i l d).
Proof. intros F H. apply (proj1 (Forall_forall _ _) F). apply nth_In. exact H. Qed.
Lemma balanced_sound n gs : Forall (balanced n) gs -> Forall (sound n) gs.
Proof. intros F. eapply Forall_impl; [|exact F]. intros g [H _]. exact H. Qed.

Lemma initialised_element m s E nu e : initialised m s E nu -> (e < length (elements m))%nat ->
  stiff_of s e = element_stiffness (hooke E nu) (nn m) (quad_of s e) /\ Forall (balanced (nn m)) (quad_of s e) /\ matrix3 (R0_of s e) /\ matrix3 (R1_of s e).
Proof.
  intros (Lq & Ek & Fq & [L0 F0] & [L1 F1]) He.
  split; [unfold stiff_of, quad_of; rewrite Ek; apply nth_map'; lia|].
  split; [apply (nth_Forall _ (Forall (balanced (nn m)))); [exact Fq|lia]|].
  split; apply (nth_Forall _ matrix3); assumption || lia.
Qed.

Definition corot_force (m : mesh) (s : state) (E nu : R) (R1 : nat -> list (list R)) (x : list (list R)) (e a c : nat) : R :=
  sum3 (fun k => entries (R1 e) c k * local_force E nu (quad_of s e) (nn m) (udisp (R0_of s e) (R1 e) (x0 m) x (row_of_element m e)) a k).

Lemma rotations_after_spec m s E nu x : initialised m s E nu -> length (rotations_after m s x) = length (elements m) /\ Forall matrix3 (rotations_after m s x).
Proof.
  intros (_ & _ & _ & _ & [L1 F1]). unfold rotations_after. destruct (corotated s); [|split; assumption].
  split; [apply map_length|]. apply Forall_forall. intros M HM. apply in_map_iff in HM. destruct HM as (row & <- & _). apply frame_matrix.
Qed.

Lemma addForce_spec m s E nu x f N : valid_mesh m -> length (x0 m) = N -> initialised m s E nu -> field N 3 x -> field N 3 f ->
  let R1 e := nth e (rotations_after m s x) [] in
  exists f', snd (addForce m s x f) = Some f' /\ field N 3 f' /\
    forall p c, (c < 3)%nat -> entries f' p c = entries f p c -
      Rsum (map (fun e => Rsum (map (fun a => if Nat.eqb (nth a (row_of_element m e) 0%nat) p then corot_force m s E nu R1 x e a c else 0) (seq 0 (nn m)))) (seq 0 (length (elements m)))).
Proof.
  intros VM LN IN Fx Ff R1. destruct (rotations_after_spec m s E nu x IN) as [LR FR].
  pose proof IN as (Lq & Ek & Fq & [L0 F0] & [L1 F1]).
  assert (FX : field N 3 (x0 m)) by (rewrite <- LN; apply VM).
  unfold addForce. assert (LK : length (p_stiffness_matrices s) = length (elements m)) by (rewrite Ek, map_length; exact Lq).
  rewrite LK, Nat.eqb_refl. cbn [negb snd]. change (if corotated s then _ else _) with (rotations_after m s x).
  rewrite (map2_nth_seq _ _ _ _ [] ([], ([], []))) by (rewrite !combine_length; lia). rewrite concat_map'.
  rewrite (flat_map_ext _ (fun e => scatter (R1 e) (selfadjoint_times (stiff_of s e) (local_displacement (R0_of s e) (R1 e) (x0 m) x (row_of_element m e))) (row_of_element m e))).
  2:{ intros e. rewrite !combine_nth' by (rewrite ?combine_length; lia). reflexivity. }
  apply (scatter_all m (fun e => selfadjoint_times (stiff_of s e) (local_displacement (R0_of s e) (R1 e) (x0 m) x (row_of_element m e))) R1 (corot_force m s E nu R1 x) f N VM LN Ff).
  - intros e He. apply (nth_Forall _ matrix3); [exact FR|lia].
  - intros e a c He Ha Hc. unfold corot_force. apply sum3_ext. intros k Hk. f_equal.
    destruct (initialised_element m s E nu e IN He) as (-> & Hb & M0 & _). destruct (valid_row m e VM He) as [Lr Fr]. rewrite LN in Fr.
    assert (M1 : matrix3 (R1 e)) by (apply (nth_Forall _ matrix3); [exact FR|lia]).
    assert (LE : forall j k, (j < nn m)%nat -> (k < 3)%nat -> _) by (intros j k' Hj Hk'; exact (local_displacement_entries N (R0_of s e) (R1 e) (x0 m) x (row_of_element m e) j k' M0 M1 FX Fx Fr ltac:(lia) Hk')).
    rewrite selfadjoint_entries; [|apply balanced_sound; exact Hb| |exact Ha|exact Hk].
    + apply local_force_linear. intros j k' Hj Hk'. apply LE; assumption.
    + rewrite (proj2 (LE 0%nat 0%nat (nn_pos m) ltac:(lia))). rewrite Lr. reflexivity.
Qed.

Definition corot_dforce (m : mesh) (s : state) (E nu : R) (kf : R) (dx : list (list R)) (e a c : nat) : R :=
  kf * sum3 (fun k => entries (R1_of s e) c k * local_force E nu (quad_of s e) (nn m) (uincr (R1_of s e) dx (row_of_element m e)) a k).

Lemma addDForce_spec m s E nu kf dx df N : valid_mesh m -> length (x0 m) = N -> initialised m s E nu -> field N 3 dx -> field N 3 df ->
  exists df', addDForce m s kf dx df = Some df' /\ field N 3 df' /\
    forall p c, (c < 3)%nat -> entries df' p c = entries df p c -
      Rsum (map (fun e => Rsum (map (fun a => if Nat.eqb (nth a (row_of_element m e) 0%nat) p then corot_dforce m s E nu kf dx e a c else 0) (seq 0 (nn m)))) (seq 0 (length (elements m)))).
Proof.
  intros VM LN IN Fx Ff.
  pose proof IN as (Lq & Ek & Fq & [L0 F0] & [L1 F1]).
  unfold addDForce. assert (LK : length (p_stiffness_matrices s) = length (elements m)) by (rewrite Ek, map_length; exact Lq).
  rewrite LK, Nat.eqb_refl. cbn [negb].
  rewrite (map2_nth_seq _ _ _ _ [] ([], [])) by (rewrite !combine_length; lia). rewrite concat_map'.
  rewrite (flat_map_ext _ (fun e => scatter (R1_of s e) (map (fun v => v * kf) (selfadjoint_times (stiff_of s e) (local_increment (R1_of s e) dx (row_of_element m e)))) (row_of_element m e))).
  2:{ intros e. rewrite !combine_nth' by (rewrite ?combine_length; lia). reflexivity. }
  apply (scatter_all m (fun e => map (fun v => v * kf) (selfadjoint_times (stiff_of s e) (local_increment (R1_of s e) dx (row_of_element m e)))) (R1_of s) (corot_dforce m s E nu kf dx) df N VM LN Ff).
  - intros e He. apply (initialised_element m s E nu e IN He).
  - intros e a c He Ha Hc. unfold corot_dforce.
    destruct (initialised_element m s E nu e IN He) as (-> & Hb & M0 & M1). destruct (valid_row m e VM He) as [Lr Fr]. rewrite LN in Fr.
    assert (LE : forall j k, (j < nn m)%nat -> (k < 3)%nat -> _) by (intros j k' Hj Hk'; exact (local_increment_entries N (R1_of s e) dx (row_of_element m e) j k' M1 Fx Fr ltac:(lia) Hk')).
    assert (LL : length (local_increment (R1_of s e) dx (row_of_element m e)) = (nn m * 3)%nat) by (rewrite (proj2 (LE 0%nat 0%nat (nn_pos m) ltac:(lia))), Lr; reflexivity).
    assert (S : forall k, (k < 3)%nat -> nth (a * 3 + k) (map (fun v => v * kf) (selfadjoint_times (element_stiffness (hooke E nu) (nn m) (quad_of s e)) (local_increment (R1_of s e) dx (row_of_element m e)))) 0 =
       kf * local_force E nu (quad_of s e) (nn m) (uincr (R1_of s e) dx (row_of_element m e)) a k).
    { intros k Hk. rewrite (nth_map' _ _ _ _ _ 0) by (unfold selfadjoint_times; rewrite map_length, seq_length, LL; lia).
      rewrite selfadjoint_entries; [|apply balanced_sound; exact Hb|exact LL|exact Ha|exact Hk].
      rewrite Rmult_comm. f_equal. apply local_force_linear. intros j k' Hj Hk'. apply LE; assumption. }
    unfold sum3. rewrite !S by lia. ring.
Qed.

(** Sum of the contributions against a weight. *)
Lemma weighted_contributions (m : mesh) (G : nat -> nat -> nat -> R) f f' N phi : valid_mesh m -> length (x0 m) = N ->
  (forall p c, (c < 3)%nat -> entries f' p c = entries f p c -
      Rsum (map (fun e => Rsum (map (fun a => if Nat.eqb (nth a (row_of_element m e) 0%nat) p then G e a c else 0) (seq 0 (nn m)))) (seq 0 (length (elements m))))) ->
  weighted N f' phi = weighted N f phi -
    Rsum (map (fun e => Rsum (map (fun a => sum3 (fun c => G e a c * phi (nth a (row_of_element m e) 0%nat) c)) (seq 0 (nn m)))) (seq 0 (length (elements m)))).
Proof.
  intros VM LN V. unfold weighted.
  rewrite (Rsum_ext _ _ (fun p => sum3 (fun c => entries f p c * phi p c) -
    Rsum (map (fun e => Rsum (map (fun a => if Nat.eqb (nth a (row_of_element m e) 0%nat) p then sum3 (fun c => G e a c * phi p c) else 0) (seq 0 (nn m)))) (seq 0 (length (elements m)))))).
  - rewrite Rsum_minus. f_equal. rewrite Rsum_swap. apply Rsum_ext. intros e He. apply in_seq in He. rewrite Rsum_swap. apply Rsum_ext. intros a Ha. apply in_seq in Ha.
    destruct (valid_row m e VM ltac:(lia)) as [Lr Fr].
    rewrite (Rsum_delta (fun p => sum3 (fun c => G e a c * phi p c))); [reflexivity|]. rewrite <- LN. apply (proj1 (Forall_forall _ _) Fr). apply nth_In. lia.
  - intros p _. unfold sum3 at 1 2. rewrite !V by lia.
    set (S := fun c => Rsum (map (fun e => Rsum (map (fun a => if Nat.eqb (nth a (row_of_element m e) 0%nat) p then G e a c else 0) (seq 0 (nn m)))) (seq 0 (length (elements m))))).
    assert (H : Rsum (map (fun e => Rsum (map (fun a => if Nat.eqb (nth a (row_of_element m e) 0%nat) p then sum3 (fun c => G e a c * phi p c) else 0) (seq 0 (nn m)))) (seq 0 (length (elements m)))) =
      S 0%nat * phi p 0%nat + S 1%nat * phi p 1%nat + S 2%nat * phi p 2%nat).
    { unfold S. rewrite <- !Rsum_scal_r, <- !Rsum_plus. apply Rsum_ext. intros e _. rewrite <- !Rsum_scal_r, <- !Rsum_plus. apply Rsum_ext. intros a _.
      unfold sum3. destruct (Nat.eqb _ p); ring. }
    rewrite H. unfold S. ring.
Qed.
