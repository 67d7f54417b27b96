From Coq Require Import ZArith Reals Lra Lia.
From Coquelicot Require Import Coquelicot.
From Coq Require Import List Arith Bool.
From Verif Require Import GridGeoModel ShapeModel ShapeSpec ShapeProofs ShapeFieldProofs LinAlg LinAlgProofs RectModel RectProofs BarycentricModel MappingSpec MappingProofs TensorModel TensorSpec
  MaterialModel MaterialSpec MaterialProofs MaterialProperties SparseModel SparseProofs Sums TractionModel TractionProofs HyperModel HyperSpec HyperProofs HyperProofs2 HyperProofs3 HyperProofs4 CorotModel CorotSpec CorotProofs CorotProofs2 CorotProofs3.
Import ListNotations.
Open Scope R_scope.

(** ** Work of the forces of an element *)

Definition form (E nu : R) (A B : nat -> nat -> R) : R :=
  lame_l E nu * sum3 (fun k => A k k) * sum3 (fun k => B k k) +
  lame_mu E nu * sum3 (fun k => sum3 (fun l => A k l * B l k + A k l * B k l)).

Lemma law_applied E nu (da : nat -> R) (D : nat -> nat -> R) (u : nat -> nat -> R) n k : (k < 3)%nat ->
  Rsum (map (fun j => sum3 (fun l => law_block E nu da (D j) k l * u j l)) (seq 0 n)) =
  lame_l E nu * da k * sum3 (fun l => grad n u D l l) + lame_mu E nu * sum3 (fun l => da l * (grad n u D l k + grad n u D k l)).
Proof.
  intros Hk. set (G := grad n u D).
  assert (R : lame_l E nu * da k * sum3 (fun l => G l l) + lame_mu E nu * sum3 (fun l => da l * (G l k + G k l)) =
    Rsum (map (fun j => lame_l E nu * da k * (u j 0%nat * D j 0%nat) + lame_l E nu * da k * (u j 1%nat * D j 1%nat) + lame_l E nu * da k * (u j 2%nat * D j 2%nat) +
      lame_mu E nu * da 0%nat * (u j 0%nat * D j k) + lame_mu E nu * da 0%nat * (u j k * D j 0%nat) +
      lame_mu E nu * da 1%nat * (u j 1%nat * D j k) + lame_mu E nu * da 1%nat * (u j k * D j 1%nat) +
      lame_mu E nu * da 2%nat * (u j 2%nat * D j k) + lame_mu E nu * da 2%nat * (u j k * D j 2%nat)) (seq 0 n))).
  { rewrite !Rsum_plus, !Rsum_scal_l. unfold G, grad, sum3. ring. }
  rewrite R. apply Rsum_ext. intros j _. unfold sum3, law_block, delta. destruct k as [|[|[|]]]; try lia; cbn [Nat.eqb]; unfold sum3; ring.
Qed.

Lemma law_work E nu (D : nat -> nat -> R) (u v : nat -> nat -> R) n :
  Rsum (map (fun a => sum3 (fun k => Rsum (map (fun j => sum3 (fun l => law_block E nu (D a) (D j) k l * u j l)) (seq 0 n)) * v a k)) (seq 0 n)) =
  form E nu (grad n u D) (grad n v D).
Proof.
  set (G := grad n u D).
  rewrite (Rsum_ext _ _ (fun a => sum3 (fun k => (lame_l E nu * D a k * sum3 (fun l => G l l) + lame_mu E nu * sum3 (fun l => D a l * (G l k + G k l))) * v a k))).
  2:{ intros a _. apply sum3_ext. intros k Hk. rewrite law_applied by exact Hk. reflexivity. }
  set (T := sum3 (fun l => G l l)).
  transitivity (Rsum (map (fun a =>
     lame_l E nu * T * (v a 0%nat * D a 0%nat) + lame_l E nu * T * (v a 1%nat * D a 1%nat) + lame_l E nu * T * (v a 2%nat * D a 2%nat) +
     lame_mu E nu * (G 0%nat 0%nat + G 0%nat 0%nat) * (v a 0%nat * D a 0%nat) + lame_mu E nu * (G 1%nat 0%nat + G 0%nat 1%nat) * (v a 0%nat * D a 1%nat) + lame_mu E nu * (G 2%nat 0%nat + G 0%nat 2%nat) * (v a 0%nat * D a 2%nat) +
     lame_mu E nu * (G 0%nat 1%nat + G 1%nat 0%nat) * (v a 1%nat * D a 0%nat) + lame_mu E nu * (G 1%nat 1%nat + G 1%nat 1%nat) * (v a 1%nat * D a 1%nat) + lame_mu E nu * (G 2%nat 1%nat + G 1%nat 2%nat) * (v a 1%nat * D a 2%nat) +
     lame_mu E nu * (G 0%nat 2%nat + G 2%nat 0%nat) * (v a 2%nat * D a 0%nat) + lame_mu E nu * (G 1%nat 2%nat + G 2%nat 1%nat) * (v a 2%nat * D a 1%nat) + lame_mu E nu * (G 2%nat 2%nat + G 2%nat 2%nat) * (v a 2%nat * D a 2%nat)) (seq 0 n))).
  - apply Rsum_ext. intros a _. unfold sum3. ring.
  - rewrite !Rsum_plus, !Rsum_scal_l. unfold form. fold T. unfold sum3.
    change (Rsum (map (fun a => v a ?k * D a ?l) (seq 0 n))) with (grad n v D k l). ring.
Qed.

Lemma element_work E nu gs n u v :
  Rsum (map (fun a => sum3 (fun k => local_force E nu gs n u a k * v a k)) (seq 0 n)) =
  Rsum (map (fun g => jacobian_determinant g * weight g * form E nu (grad n u (entries (dN_dx g))) (grad n v (entries (dN_dx g)))) gs).
Proof.
  rewrite (Rsum_ext _ (fun g => jacobian_determinant g * weight g * form E nu (grad n u (entries (dN_dx g))) (grad n v (entries (dN_dx g))))
    (fun g => Rsum (map (fun a => sum3 (fun k => jacobian_determinant g * weight g * Rsum (map (fun j => sum3 (fun l => law_block E nu (entries (dN_dx g) a) (entries (dN_dx g) j) k l * u j l)) (seq 0 n)) * v a k)) (seq 0 n)))).
  2:{ intros g _. rewrite <- law_work, <- Rsum_scal_l. apply Rsum_ext. intros a _. unfold sum3. ring. }
  rewrite (Rsum_swap _ _ (fun g a => _) gs (seq 0 n)). apply Rsum_ext. intros a _.
  assert (L : forall k, local_force E nu gs n u a k = Rsum (map (fun g => jacobian_determinant g * weight g * Rsum (map (fun j => sum3 (fun l => law_block E nu (entries (dN_dx g) a) (entries (dN_dx g) j) k l * u j l)) (seq 0 n))) gs)).
  { intros k. unfold local_force.
    rewrite (Rsum_ext _ _ (fun j => Rsum (map (fun g => jacobian_determinant g * weight g * sum3 (fun l => law_block E nu (entries (dN_dx g) a) (entries (dN_dx g) j) k l * u j l)) gs))).
    - rewrite Rsum_swap. apply Rsum_ext. intros g _. apply Rsum_scal_l.
    - intros j _. unfold blk, sum3. rewrite <- !Rsum_scal_r, <- !Rsum_plus. apply Rsum_ext. intros g _. ring. }
  unfold sum3. rewrite !L, <- !Rsum_scal_r, <- !Rsum_plus. apply Rsum_ext. intros g _. unfold sum3. ring.
Qed.

Lemma rotated_work E nu gs n u (R1 : list (list R)) (v : nat -> nat -> R) :
  Rsum (map (fun a => sum3 (fun c => sum3 (fun k => entries R1 c k * local_force E nu gs n u a k) * v a c)) (seq 0 n)) =
  Rsum (map (fun g => jacobian_determinant g * weight g * form E nu (grad n u (entries (dN_dx g))) (grad n (fun j k => sum3 (fun l => entries R1 l k * v j l)) (entries (dN_dx g)))) gs).
Proof. rewrite <- element_work. apply Rsum_ext. intros a _. unfold sum3. ring. Qed.

Definition works (m : mesh) (s : state) (E nu : R) (u v : nat -> nat -> nat -> R) : R :=
  Rsum (map (fun e => Rsum (map (fun g => jacobian_determinant g * weight g *
     form E nu (grad (nn m) (u e) (entries (dN_dx g))) (grad (nn m) (v e) (entries (dN_dx g)))) (quad_of s e))) (seq 0 (length (elements m)))).

Lemma force_work m s E nu x f v N : valid_mesh m -> length (x0 m) = N -> initialised m s E nu -> field N 3 x -> field N 3 f -> field N 3 v ->
  let R1 e := nth e (rotations_after m s x) [] in
  exists f', snd (addForce m s x f) = Some f' /\ field N 3 f' /\
    power f' v = power f v - works m s E nu (fun e => udisp (R0_of s e) (R1 e) (x0 m) x (row_of_element m e)) (fun e => uincr (R1 e) v (row_of_element m e)).
Proof.
  intros VM LN IN Fx Ff Fv R1. destruct (addForce_spec m s E nu x f N VM LN IN Fx Ff) as (f' & E1 & Ff' & V). exists f'. split; [exact E1|]. split; [exact Ff'|].
  rewrite (power_weighted N f' v Ff' Fv), (power_weighted N f v Ff Fv), (weighted_contributions m _ f f' N _ VM LN V). f_equal. unfold works.
  apply Rsum_ext. intros e _. fold R1. unfold corot_force.
  exact (rotated_work E nu (quad_of s e) (nn m) (udisp (R0_of s e) (R1 e) (x0 m) x (row_of_element m e)) (R1 e) (fun a c => entries v (nth a (row_of_element m e) 0%nat) c)).
Qed.
Lemma dforce_work m s E nu kf dx df v N : valid_mesh m -> length (x0 m) = N -> initialised m s E nu -> field N 3 dx -> field N 3 df -> field N 3 v ->
  exists df', addDForce m s kf dx df = Some df' /\ field N 3 df' /\
    power df' v = power df v - kf * works m s E nu (fun e => uincr (R1_of s e) dx (row_of_element m e)) (fun e => uincr (R1_of s e) v (row_of_element m e)).
Proof.
  intros VM LN IN Fx Ff Fv. destruct (addDForce_spec m s E nu kf dx df N VM LN IN Fx Ff) as (f' & E1 & Ff' & V). exists f'. split; [exact E1|]. split; [exact Ff'|].
  rewrite (power_weighted N f' v Ff' Fv), (power_weighted N df v Ff Fv), (weighted_contributions m _ df f' N _ VM LN V). f_equal. unfold works.
  rewrite <- Rsum_scal_l. apply Rsum_ext. intros e _. unfold corot_dforce.
  pose proof (rotated_work E nu (quad_of s e) (nn m) (uincr (R1_of s e) dx (row_of_element m e)) (R1_of s e) (fun a c => entries v (nth a (row_of_element m e) 0%nat) c)) as W.
  symmetry in W.
  transitivity (kf * Rsum (map (fun a => sum3 (fun c => sum3 (fun k => entries (R1_of s e) c k * local_force E nu (quad_of s e) (nn m) (uincr (R1_of s e) dx (row_of_element m e)) a k) * entries v (nth a (row_of_element m e) 0%nat) c)) (seq 0 (nn m)))).
  - rewrite <- Rsum_scal_l. apply Rsum_ext. intros a _. unfold sum3. ring.
  - apply f_equal. symmetry. exact W.
Qed.

(** With identity rotations and the quadrature nodes of one initialisation: linear elasticity. *)
Lemma form_strain E nu A B : form E nu (entries A) (entries B) =
  E * nu / ((1 + nu) * (1 - 2 * nu)) * tr (small_strain A) * tr (small_strain B) + 2 * (E / (2 * (1 + nu))) * double_dot (small_strain A) (small_strain B).
Proof.
  fold (lame_l E nu) (lame_mu E nu). unfold form, tr, double_dot, small_strain, sum3.
  rewrite !entries_of_entries by lia. field.
Qed.
Lemma form_ext E nu A A' B B' : (forall i j, (i < 3)%nat -> (j < 3)%nat -> A i j = A' i j) -> (forall i j, (i < 3)%nat -> (j < 3)%nat -> B i j = B' i j) ->
  form E nu A B = form E nu A' B'.
Proof. intros HA HB. unfold form, sum3. rewrite !HA, !HB by lia. reflexivity. Qed.

Lemma works_linear m s E nu u v (U V : list (list R)) : valid_mesh m ->
  (forall e, (e < length (elements m))%nat -> quad_of s e = gauss_nodes_of (type m) (gather (x0 m) (row_of_element m e))) ->
  (forall e j k, (e < length (elements m))%nat -> (j < nn m)%nat -> (k < 3)%nat -> u e j k = entries U (nth j (row_of_element m e) 0%nat) k) ->
  (forall e j k, (e < length (elements m))%nat -> (j < nn m)%nat -> (k < 3)%nat -> v e j k = entries V (nth j (row_of_element m e) 0%nat) k) ->
  works m s E nu u v = linear_elastic_work m E nu U V.
Proof.
  intros VM HQ HU HV. unfold works, linear_elastic_work.
  assert (SE : forall (h : list nat -> R), Rsum (map h (elements m)) = Rsum (map (fun e => h (row_of_element m e)) (seq 0 (length (elements m))))).
  { intros h. rewrite (Rsum_nth (map h (elements m))), map_length. apply Rsum_ext. intros e He. apply in_seq in He. apply (nth_map' _ _ h). lia. }
  rewrite SE. apply Rsum_ext. intros e He. apply in_seq in He. rewrite HQ by lia.
  destruct (valid_row m e VM ltac:(lia)) as [Lr _].
  rewrite gauss_nodes_of_alt, map_map. apply Rsum_ext. intros g _. cbv zeta. rewrite <- form_strain.
  cbn [weight jacobian_determinant corot_node].
  rewrite (form_ext E nu _ (entries (field_gradient (type m) (x0 m) U (row_of_element m e) (fst g))) _ (entries (field_gradient (type m) (x0 m) V (row_of_element m e) (fst g)))).
  - ring.
  - intros i j Hi Hj. rewrite <- (corot_gradient (type m) (x0 m) (row_of_element m e) Lr g U i j Hi Hj). unfold grad. apply Rsum_ext. intros a Ha. apply in_seq in Ha.
    rewrite HU by (unfold nn; lia). rewrite gather_entries by (rewrite Lr; apply Ha). reflexivity.
  - intros i j Hi Hj. rewrite <- (corot_gradient (type m) (x0 m) (row_of_element m e) Lr g V i j Hi Hj). unfold grad. apply Rsum_ext. intros a Ha. apply in_seq in Ha.
    rewrite HV by (unfold nn; lia). rewrite gather_entries by (rewrite Lr; apply Ha). reflexivity.
Qed.

(** ** The matrix *)

Definition tblock (m : mesh) (s : state) (E nu kf : R) (e i j a b : nat) : R :=
  - kf * sum3 (fun k => sum3 (fun l => entries (R1_of s e) a k * blk E nu (quad_of s e) i j k l * entries (R1_of s e) b l)).
Lemma tblock_symmetric m s E nu kf e i j a b : tblock m s E nu kf e i j a b = tblock m s E nu kf e j i b a.
Proof.
  unfold tblock. f_equal. unfold sum3.
  rewrite !(blk_symmetric E nu (quad_of s e) i j). ring.
Qed.

Lemma rotated_entries R1 k f a b : matrix3 R1 -> matrix3 k -> (a < 3)%nat -> (b < 3)%nat ->
  entries (rotated R1 k f) a b = f * sum3 (fun p => sum3 (fun q => entries R1 a p * entries k p q * entries R1 b q)).
Proof.
  intros M1 M2 Ha Hb. destruct (matrix3_cases R1 M1) as (? & ? & ? & ? & ? & ? & ? & ? & ? & ->). destruct (matrix3_cases k M2) as (? & ? & ? & ? & ? & ? & ? & ? & ? & ->).
  unfold rotated. rewrite mscale_entries. f_equal. unfold matmul, transpose, column, vdot, entries, sum3. destruct a as [|[|[|]]], b as [|[|[|]]]; try lia; cbn; ring.
Qed.
Lemma rotated_matrix R1 k f : matrix3 R1 -> matrix3 (rotated R1 k f).
Proof.
  intros M1. unfold rotated. apply mscale_matrix. destruct (matrix3_cases R1 M1) as (? & ? & ? & ? & ? & ? & ? & ? & ? & ->). split; [reflexivity|repeat constructor].
Qed.
Lemma block3_matrix K r c : matrix3 (block3 K r c).
Proof. split; [reflexivity|repeat constructor]. Qed.
Lemma block3_entries K r c a b : (a < 3)%nat -> (b < 3)%nat -> entries (block3 K r c) a b = e K (r + a) (c + b).
Proof. intros Ha Hb. unfold block3, entries. rewrite nth_map_seq' by lia. rewrite nth_map_seq by lia. reflexivity. Qed.

Lemma tsum_add_block r c k phi : tsum (add_block r c k) phi = sum3 (fun a => sum3 (fun b => entries k a b * phi (r + a)%nat (c + b)%nat)).
Proof. unfold add_block, tsum, sum3, entries, e. cbn [seq flat_map map app]. cbn [Rsum fold_right row_of col_of value_of fst snd]. ring. Qed.
Lemma transpose_entries M a b : matrix3 M -> (a < 3)%nat -> (b < 3)%nat -> entries (transpose 3 M) a b = entries M b a.
Proof.
  intros HM Ha Hb. destruct (matrix3_cases M HM) as (? & ? & ? & ? & ? & ? & ? & ? & ? & ->).
  unfold transpose, column, entries. destruct a as [|[|[|]]], b as [|[|[|]]]; try lia; reflexivity.
Qed.

Lemma addKToMatrix_spec m s E nu kf off : valid_mesh m -> initialised m s E nu ->
  exists ts, addKToMatrix m s kf off = Some ts /\
    Forall (fun t => (off <= row_of t < off + length (x0 m) * 3 /\ off <= col_of t < off + length (x0 m) * 3)%nat) ts /\
    forall phi, tsum ts phi = Rsum (map (fun e => Rsum (map (fun i => Rsum (map (fun j =>
      sum3 (fun a => sum3 (fun b => tblock m s E nu kf e i j a b * phi (off + nth i (row_of_element m e) 0 * 3 + a)%nat (off + nth j (row_of_element m e) 0 * 3 + b)%nat)))
      (seq 0 (nn m)))) (seq 0 (nn m)))) (seq 0 (length (elements m)))).
Proof.
  intros VM IN. pose proof IN as (Lq & Ek & Fq & [L0 F0] & [L1 F1]). unfold addKToMatrix.
  assert (LK : length (p_stiffness_matrices s) = length (elements m)) by (rewrite Ek, map_length; exact Lq).
  rewrite LK, L1, Nat.ltb_irrefl. cbn [orb].
  rewrite (map2_nth_seq _ _ _ _ [] ([], [])) by (rewrite !combine_length; lia). rewrite concat_map'.
  eexists. split; [reflexivity|].
  assert (EL : forall e, nth e (combine (p_stiffness_matrices s) (p_current_rotation s)) ([], []) = (stiff_of s e, R1_of s e)) by (intros e; apply combine_nth'; lia).
  split.
  - apply Forall_forall. intros t Ht. apply in_flat_map in Ht. destruct Ht as (e & He & Ht). apply in_seq in He. rewrite EL in Ht. fold (row_of_element m e) in Ht.
    destruct (valid_row m e VM ltac:(lia)) as [Lr Fr].
    assert (B : forall r c k i j, (i < nn m)%nat -> (j < nn m)%nat -> r = (off + nth i (row_of_element m e) 0 * 3)%nat -> c = (off + nth j (row_of_element m e) 0 * 3)%nat -> In t (add_block r c k) ->
       (off <= row_of t < off + length (x0 m) * 3 /\ off <= col_of t < off + length (x0 m) * 3)%nat).
    { intros r c k i j Hi Hj -> -> H. unfold add_block in H. apply in_flat_map in H. destruct H as (a & Ha & H). apply in_map_iff in H. destruct H as (b & <- & Hb).
      apply in_seq in Ha. apply in_seq in Hb. cbn [row_of col_of fst snd].
      pose proof (proj1 (Forall_forall _ _) Fr (nth i (row_of_element m e) 0%nat) ltac:(apply nth_In; lia)). pose proof (proj1 (Forall_forall _ _) Fr (nth j (row_of_element m e) 0%nat) ltac:(apply nth_In; lia)). cbv beta in *. lia. }
    rewrite Lr in Ht. apply in_app_or in Ht. destruct Ht as [Ht|Ht]; apply in_flat_map in Ht; destruct Ht as (i & Hi & Ht); apply in_seq in Hi; cbv zeta in Ht.
    + apply (B _ _ _ i i) in Ht; auto; lia.
    + apply in_flat_map in Ht. destruct Ht as (j & Hj & Ht). apply in_seq in Hj. apply in_app_or in Ht. destruct Ht as [Ht|Ht].
      * apply (B _ _ _ i j) in Ht; auto; lia.
      * apply (B _ _ _ j i) in Ht; auto; lia.
  - intros phi. rewrite tsum_flat_map. apply Rsum_ext. intros e He. apply in_seq in He. rewrite EL. fold (row_of_element m e).
    destruct (valid_row m e VM ltac:(lia)) as [Lr _]. rewrite Lr.
    destruct (initialised_element m s E nu e IN ltac:(lia)) as (Es & Hb & _ & M1).
    assert (RB : forall i j a b, (i <= j)%nat -> (j < nn m)%nat -> (a < 3)%nat -> (b < 3)%nat -> entries (rotated (R1_of s e) (block3 (stiff_of s e) (i * 3) (j * 3)) (-1 * kf)) a b = tblock m s E nu kf e i j a b).
    { intros i j a b Hij Hj Ha Hb'. rewrite rotated_entries by (assumption || apply block3_matrix). unfold tblock. replace (-1 * kf) with (- kf) by ring. f_equal.
      apply sum3_ext. intros p Hp. apply sum3_ext. intros q Hq. rewrite block3_entries by assumption. rewrite Es.
      rewrite (element_stiffness_entries E nu (quad_of s e) (nn m)) by (try apply balanced_sound; assumption || lia).
      rewrite (proj2 (Nat.leb_le i j) Hij). reflexivity. }
    rewrite tsum_app, !tsum_flat_map, <- Rsum_plus. rewrite <- (triangle_sum (nn m) (fun i j => sum3 (fun a => sum3 (fun b =>
      tblock m s E nu kf e i j a b * phi (off + nth i (row_of_element m e) 0 * 3 + a)%nat (off + nth j (row_of_element m e) 0 * 3 + b)%nat)))).
    apply Rsum_ext. intros i Hi. apply in_seq in Hi. cbv zeta. f_equal.
    + rewrite tsum_add_block. apply sum3_ext. intros a Ha. apply sum3_ext. intros b Hb'. rewrite RB by lia. reflexivity.
    + rewrite tsum_flat_map. apply Rsum_ext. intros j Hj. apply in_seq in Hj. rewrite tsum_app, !tsum_add_block. f_equal.
      * apply sum3_ext. intros a Ha. apply sum3_ext. intros b Hb'. rewrite RB by lia. reflexivity.
      * apply sum3_ext. intros a Ha. apply sum3_ext. intros b Hb'. rewrite transpose_entries by (assumption || apply rotated_matrix; assumption). rewrite RB by lia. rewrite tblock_symmetric. reflexivity.
Qed.

(** A row of the matrix times a vector. *)
Lemma row_times ts off n i (d : nat -> R) : Forall (fun t => (off <= col_of t < off + n)%nat) ts ->
  Rsum (map (fun j => coeff ts i (off + j)%nat * d j) (seq 0 n)) = tsum ts (fun a b => if Nat.eqb a i then d (b - off)%nat else 0).
Proof.
  intros F. rewrite (Rsum_ext _ _ (fun j => Rsum (map (fun t => if Nat.eqb (col_of t - off) j then value_of t * (if Nat.eqb (row_of t) i then d j else 0) else 0) ts))).
  - rewrite Rsum_swap. unfold tsum. apply Rsum_ext. intros t Ht. pose proof (proj1 (Forall_forall _ _) F t Ht) as B. cbv beta in B.
    rewrite (Rsum_delta (fun j => value_of t * (if Nat.eqb (row_of t) i then d j else 0))) by lia. reflexivity.
  - intros j _. rewrite coeff_tsum. unfold tsum. rewrite <- Rsum_scal_r. apply Rsum_ext. intros t Ht. pose proof (proj1 (Forall_forall _ _) F t Ht) as B. cbv beta in B.
    destruct (Nat.eqb_spec (col_of t) (off + j)) as [E|E], (Nat.eqb_spec (col_of t - off) j) as [E'|E']; try lia; destruct (Nat.eqb_spec (row_of t) i); cbn [andb]; ring.
Qed.
