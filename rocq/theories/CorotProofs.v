From Coq Require Import ZArith Reals Lra Lia.
From Coquelicot Require Import Coquelicot.
From Coq Require Import List Arith Bool.
From Verif Require Import GridGeoModel ShapeModel ShapeSpec ShapeProofs ShapeFieldProofs LinAlg LinAlgProofs RectModel RectProofs BarycentricModel MappingSpec MappingProofs TensorModel TensorSpec
  MaterialModel MaterialSpec MaterialProofs MaterialProperties SparseModel SparseProofs Sums TractionModel TractionProofs HyperModel HyperSpec HyperProofs HyperProofs2 HyperProofs3 HyperProofs4 CorotModel CorotSpec.
Import ListNotations.
Open Scope R_scope.

(** ** Stiffness of an element *)

Definition lame_l (E nu : R) : R := E * nu / ((1 + nu) * (1 - 2 * nu)).
Definition lame_mu (E nu : R) : R := E / (2 * (1 + nu)).
Definition law_block (E nu : R) (di dj : nat -> R) (m n : nat) : R :=
  lame_l E nu * di m * dj n + lame_mu E nu * di n * dj m + lame_mu E nu * delta m n * sum3 (fun k => di k * dj k).

Lemma Bi_matrix dx : length (Bi dx) = 6%nat /\ Forall (fun row => length row = 3%nat) (Bi dx).
Proof. split; [reflexivity|repeat constructor]. Qed.

Lemma gauss_stiffness_entries E nu i j g n a b : sound n g -> (i < n)%nat -> (j < n)%nat -> (a < 3)%nat -> (b < 3)%nat ->
  entries (gauss_stiffness (hooke E nu) i j g) a b =
  jacobian_determinant g * weight g * law_block E nu (entries (dN_dx g) i) (entries (dN_dx g) j) a b.
Proof.
  intros [Ln Rn] Hi Hj Ha Hb. unfold gauss_stiffness. rewrite !mscale_entries.
  assert (Li : length (nth i (dN_dx g) []) = 3%nat) by (apply rows3_nth; [exact Rn|lia]).
  assert (Lj : length (nth j (dN_dx g) []) = 3%nat) by (apply rows3_nth; [exact Rn|lia]).
  unfold law_block. unfold entries at 2 3 4 5 6 7.
  destruct (len3 _ _ Li) as (p0 & p1 & p2 & ->), (len3 _ _ Lj) as (q0 & q1 & q2 & ->).
  match goal with |- weight g * (jacobian_determinant g * ?a) = _ * _ * ?b => assert (E1 : a = b) end.
  - unfold hooke. fold (lame_l E nu) (lame_mu E nu). generalize (lame_l E nu) (lame_mu E nu). intros l m.
    unfold matmul, transpose, Bi, column, vdot, entries, sum3, delta. destruct a as [|[|[|]]], b as [|[|[|]]]; try lia; cbn; ring.
  - rewrite E1. ring.
Qed.
Lemma gauss_stiffness_matrix C i j g : matrix3 (gauss_stiffness C i j g).
Proof. unfold gauss_stiffness. apply mscale_matrix, mscale_matrix. split; [reflexivity|repeat constructor]. Qed.

Definition blk (E nu : R) (gs : list gauss_node) (i j m n : nat) : R :=
  Rsum (map (fun g => jacobian_determinant g * weight g * law_block E nu (entries (dN_dx g) i) (entries (dN_dx g) j) m n) gs).

Lemma folded_block E nu gs n i j a b : Forall (sound n) gs -> (i < n)%nat -> (j < n)%nat -> (a < 3)%nat -> (b < 3)%nat ->
  e (fold_left (fun K g => madd K (gauss_stiffness (hooke E nu) i j g)) gs (repeat (repeat 0 3) 3)) a b = blk E nu gs i j a b.
Proof.
  intros HS Hi Hj Ha Hb.
  assert (G : forall gs A, matrix3 A ->
     matrix3 (fold_left (fun K g => madd K (gauss_stiffness (hooke E nu) i j g)) gs A) /\
     forall a b, entries (fold_left (fun K g => madd K (gauss_stiffness (hooke E nu) i j g)) gs A) a b =
       entries A a b + Rsum (map (fun g => entries (gauss_stiffness (hooke E nu) i j g) a b) gs)).
  { clear HS. induction gs0 as [|g gs0 IH]; intros A MA; cbn [fold_left].
    - split; [exact MA|]. intros. simpl. ring.
    - destruct (madd_spec A _ MA (gauss_stiffness_matrix (hooke E nu) i j g)) as [M2 E2]. destruct (IH _ M2) as [M3 E3]. split; [exact M3|].
      intros u v. rewrite E3, E2. cbn [map Rsum fold_right]. change (fold_right Rplus 0) with Rsum. ring. }
  change (e ?M a b) with (entries M a b). rewrite (proj2 (G gs _ zeros3)), zeros_entries, Rplus_0_l. unfold blk.
  apply Rsum_ext. intros g Hg. apply (gauss_stiffness_entries E nu i j g n); try assumption. exact (proj1 (Forall_forall _ _) HS g Hg).
Qed.

Lemma divmod3 i m : (m < 3)%nat -> ((i * 3 + m) / 3 = i /\ (i * 3 + m) mod 3 = m)%nat.
Proof.
  intros H. split.
  - rewrite Nat.add_comm, Nat.div_add by lia. rewrite Nat.div_small by lia. reflexivity.
  - rewrite Nat.add_comm, Nat.mod_add by lia. apply Nat.mod_small. lia.
Qed.

Lemma element_stiffness_entries E nu gs n i j a b : Forall (sound n) gs -> (i < n)%nat -> (j < n)%nat -> (a < 3)%nat -> (b < 3)%nat ->
  e (element_stiffness (hooke E nu) n gs) (i * 3 + a) (j * 3 + b) = if Nat.leb i j then blk E nu gs i j a b else 0.
Proof.
  intros HS Hi Hj Ha Hb. unfold e, element_stiffness. rewrite nth_map_seq' by lia. rewrite nth_map_seq by lia. cbn [Nat.add].
  destruct (divmod3 i a Ha) as [-> ->]. destruct (divmod3 j b Hb) as [-> ->].
  destruct (Nat.leb i j); [|reflexivity]. apply (folded_block E nu gs n); assumption.
Qed.

Lemma law_block_symmetric E nu di dj m n : law_block E nu di dj m n = law_block E nu dj di n m.
Proof.
  unfold law_block, sum3, delta. destruct (Nat.eqb_spec m n) as [-> |H]; [rewrite Nat.eqb_refl|rewrite (proj2 (Nat.eqb_neq n m)) by auto]; ring.
Qed.
Lemma blk_symmetric E nu gs i j m n : blk E nu gs i j m n = blk E nu gs j i n m.
Proof. unfold blk. apply Rsum_ext. intros g _. rewrite law_block_symmetric. reflexivity. Qed.

(** What selfadjointView<Upper> reads. *)
Lemma upper_entries E nu gs n i j a b : Forall (sound n) gs -> (i < n)%nat -> (j < n)%nat -> (a < 3)%nat -> (b < 3)%nat ->
  (if Nat.leb (i * 3 + a) (j * 3 + b) then e (element_stiffness (hooke E nu) n gs) (i * 3 + a) (j * 3 + b)
   else e (element_stiffness (hooke E nu) n gs) (j * 3 + b) (i * 3 + a)) = blk E nu gs i j a b.
Proof.
  intros HS Hi Hj Ha Hb. rewrite !(element_stiffness_entries E nu gs n) by assumption.
  destruct (Nat.leb_spec (i * 3 + a) (j * 3 + b)), (Nat.leb_spec i j), (Nat.leb_spec j i); try lia; try reflexivity; symmetry; apply blk_symmetric.
Qed.

(** ** Sums by nodes *)

Lemma Rsum_by_three n (h : nat -> R) : Rsum (map h (seq 0 (n * 3))) = Rsum (map (fun j => sum3 (fun k => h (j * 3 + k)%nat)) (seq 0 n)).
Proof.
  induction n as [|n IH]; [reflexivity|]. rewrite seq_S, map_app, Rsum_app. rewrite <- IH.
  replace (S n * 3)%nat with (n * 3 + 3)%nat by lia. rewrite seq_app, map_app, Rsum_app. f_equal.
  cbn [Nat.add seq map Rsum fold_right]. unfold sum3. rewrite Nat.add_0_r.
  replace (S (n * 3)) with (n * 3 + 1)%nat by lia. replace (S (n * 3 + 1)) with (n * 3 + 2)%nat by lia. ring.
Qed.

Lemma flat_map3 (f : nat -> list R) l j k : (forall a, length (f a) = 3%nat) -> (k < 3)%nat -> (j < length l)%nat ->
  nth (j * 3 + k) (flat_map f l) 0 = nth k (f (nth j l 0%nat)) 0.
Proof.
  intros H Hk. revert j. induction l as [|a l IH]; intros j Hj; [simpl in Hj; lia|]. cbn [flat_map]. destruct j as [|j].
  - rewrite app_nth1 by (rewrite H; lia). reflexivity.
  - rewrite app_nth2 by (rewrite H; lia). rewrite H. replace (S j * 3 + k - 3)%nat with (j * 3 + k)%nat by lia. apply IH. simpl in Hj. lia.
Qed.
Lemma flat_map3_length (f : nat -> list R) l : (forall a, length (f a) = 3%nat) -> length (flat_map f l) = (length l * 3)%nat.
Proof. intros H. induction l as [|a l IH]; [reflexivity|]. cbn [flat_map length]. rewrite app_length, H, IH. lia. Qed.

(** Force at the local node i (in the frame of the element) for the local displacements u. *)
Definition local_force (E nu : R) (gs : list gauss_node) (n : nat) (u : nat -> nat -> R) (i m : nat) : R :=
  Rsum (map (fun j => sum3 (fun k => blk E nu gs i j m k * u j k)) (seq 0 n)).

Lemma selfadjoint_entries E nu gs n U i m : Forall (sound n) gs -> length U = (n * 3)%nat -> (i < n)%nat -> (m < 3)%nat ->
  nth (i * 3 + m) (selfadjoint_times (element_stiffness (hooke E nu) n gs) U) 0 =
  local_force E nu gs n (fun j k => nth (j * 3 + k) U 0) i m.
Proof.
  intros HS LU Hi Hm. unfold selfadjoint_times. rewrite LU, nth_map_seq by lia. cbn [Nat.add]. rewrite Rsum_by_three.
  unfold local_force. apply Rsum_ext. intros j Hj. apply in_seq in Hj. apply sum3_ext. intros k Hk.
  rewrite (upper_entries E nu gs n i j m k) by (assumption || lia). reflexivity.
Qed.

(** ** Balance *)

Definition balanced (n : nat) (g : gauss_node) : Prop :=
  sound n g /\ forall k, (k < 3)%nat -> Rsum (map (fun a => entries (dN_dx g) a k) (seq 0 n)) = 0.

Lemma blk_constant E nu gs n i m k : Forall (balanced n) gs -> (m < 3)%nat -> (k < 3)%nat ->
  Rsum (map (fun j => blk E nu gs i j m k) (seq 0 n)) = 0.
Proof.
  intros HB Hm Hk. unfold blk. rewrite Rsum_swap. apply Rsum_zero. intros g Hg. destruct (proj1 (Forall_forall _ _) HB g Hg) as [_ Z].
  rewrite Rsum_scal_l. unfold law_block.
  set (di := entries (dN_dx g) i).
  rewrite (Rsum_ext _ _ (fun j => lame_l E nu * di m * entries (dN_dx g) j k + lame_mu E nu * di k * entries (dN_dx g) j m +
    lame_mu E nu * delta m k * (di 0%nat * entries (dN_dx g) j 0%nat + di 1%nat * entries (dN_dx g) j 1%nat + di 2%nat * entries (dN_dx g) j 2%nat))) by reflexivity.
  rewrite !Rsum_plus, !Rsum_scal_l, !Rsum_plus, !Rsum_scal_l, !Z by lia. ring.
Qed.

Lemma local_force_constant E nu gs n i m (c : nat -> R) : Forall (balanced n) gs -> (m < 3)%nat ->
  local_force E nu gs n (fun _ k => c k) i m = 0.
Proof.
  intros HB Hm. unfold local_force, sum3. rewrite !Rsum_plus, !Rsum_scal_r, !blk_constant by (assumption || lia). ring.
Qed.
Lemma local_force_total E nu gs n u m : Forall (balanced n) gs -> (m < 3)%nat ->
  Rsum (map (fun i => local_force E nu gs n u i m) (seq 0 n)) = 0.
Proof.
  intros HB Hm. unfold local_force. rewrite Rsum_swap. apply Rsum_zero. intros j _. unfold sum3. rewrite !Rsum_plus, !Rsum_scal_r.
  assert (Z : forall k, (k < 3)%nat -> Rsum (map (fun i => blk E nu gs i j m k) (seq 0 n)) = 0).
  { intros k Hk. rewrite (Rsum_ext _ _ (fun i => blk E nu gs j i k m)) by (intros; apply blk_symmetric). apply blk_constant; assumption. }
  rewrite !Z by lia. ring.
Qed.

Lemma local_force_linear E nu gs n u v i m : (forall j k, (j < n)%nat -> (k < 3)%nat -> u j k = v j k) ->
  local_force E nu gs n u i m = local_force E nu gs n v i m.
Proof.
  intros H. unfold local_force. apply Rsum_ext. intros j Hj. apply in_seq in Hj. apply sum3_ext. intros k Hk. rewrite H by lia. reflexivity.
Qed.

(** The quadrature nodes computed by reinit are balanced. *)
Lemma in_firstn_in (A : Type) n (l : list A) a : In a (firstn n l) -> In a l.
Proof. intros H. rewrite <- (firstn_skipn n l). apply in_or_app. left. exact H. Qed.
Lemma integration_point_length k g : In g (integration_points k) -> length (fst g) = 3%nat.
Proof.
  destruct k as [|[|]]; cbn [integration_points]; intros H.
  - apply (gauss_position_length3 Tetrahedron_Linear); [reflexivity|]. exact (in_firstn_in _ 1%nat _ _ H).
  - destruct H as [<- |[]]. reflexivity.
  - apply (gauss_position_length3 Hexahedron_Linear); [reflexivity|exact H].
Qed.

Section ReinitNodes.
Variables (k : elastic) (X : list (list R)) (row : list nat).
Hypothesis row_length : length row = NumberOfNodes (kind_of_elements k).
Let d : domain := {| dim := 3; kind := kind_of_elements k; positions := X; connectivity := [row] |}.
Let n := NumberOfNodes (kind_of_elements k).

Lemma canonical3 : CanonicalDimension (kind_of_elements k) = 3%nat.
Proof. destruct k; reflexivity. Qed.

Definition corot_node (g : list R * R) : gauss_node :=
  let J := jacobian 3 (kind_of_elements k) (gather X row) (fst g) in
  {| weight := snd g; jacobian_determinant := det J; dN_dx := map (matvec (transpose 3 (inverse J))) (dL (kind_of_elements k) (fst g)) |}.
Lemma gauss_nodes_of_alt : gauss_nodes_of k (gather X row) = map corot_node (integration_points k).
Proof. reflexivity. Qed.
Lemma corot_node_dN g : dN_dx (corot_node g) = dN_dx (the_node d row g).
Proof. reflexivity. Qed.

Lemma corot_node_balanced g : length (fst g) = 3%nat -> balanced n (corot_node g).
Proof.
  intros Hg. split.
  - split; rewrite corot_node_dN; [apply (proj1 (the_node_sound d row g))|apply (proj2 (the_node_sound d row g))].
  - intros l Hl. rewrite corot_node_dN.
    rewrite (Rsum_ext _ _ (fun a => sum3 (fun c => entries (dL (kind d) (fst g)) a c * entries (inverse (rest_J d row g)) c l)))
      by (intros a Ha; apply in_seq in Ha; apply (the_node_entries d row g canonical3 row_length); [exact (proj2 Ha)|exact Hl]).
    assert (Z : forall c, (c < 3)%nat -> Rsum (map (fun a => entries (dL (kind d) (fst g)) a c) (seq 0 n)) = 0).
    { intros c Hc. rewrite <- (derivatives_sum_to_zero (kind d) (fst g) c);
        [|cbn [kind d]; rewrite canonical3; exact Hg|cbn [kind d]; rewrite canonical3; exact Hc].
      rewrite (Rsum_nth (map (fun row => nth c row 0) (dL (kind d) (fst g)))), map_length, length_dL.
      apply Rsum_ext. intros a _. symmetry. apply (nth_column (dL (kind d) (fst g)) c a). }
    unfold sum3. rewrite !Rsum_plus, !Rsum_scal_r, !Z by lia. ring.
Qed.
Lemma gauss_nodes_of_balanced : Forall (balanced n) (gauss_nodes_of k (gather X row)).
Proof.
  rewrite gauss_nodes_of_alt. apply Forall_forall. intros h Hh. apply in_map_iff in Hh. destruct Hh as (g & <- & Hg).
  apply corot_node_balanced, (integration_point_length k g Hg).
Qed.
(** The gradient with the derivatives computed by reinit. *)
Lemma corot_gradient g u i l : (i < 3)%nat -> (l < 3)%nat ->
  grad n (entries (gather u row)) (entries (dN_dx (corot_node g))) i l = entries (CorotSpec.field_gradient k X u row (fst g)) i l.
Proof.
  intros Hi Hl. rewrite corot_node_dN. transitivity (sum3 (fun c => grad n (entries (gather u row)) (entries (dL (kind d) (fst g))) i c * entries (inverse (rest_J d row g)) c l)).
  - exact (grad_the_node d row g canonical3 row_length (entries (gather u row)) i l Hi Hl).
  - unfold CorotSpec.field_gradient, product. rewrite entries_of_entries by assumption. apply sum3_ext. intros c Hc. f_equal.
    pose proof (jacobian_entries d row g canonical3 row_length u) as P. cbn [kind d] in P. rewrite P. rewrite entries_of_entries by assumption. reflexivity.
Qed.
End ReinitNodes.

(** ** Rotations and frames *)

Lemma rotation_entries Q : rotation Q -> exists a b c d e f g h i, Q = [[a; b; c]; [d; e; f]; [g; h; i]] /\
  a * a + d * d + g * g = 1 /\ b * b + e * e + h * h = 1 /\ c * c + f * f + i * i = 1 /\
  a * b + d * e + g * h = 0 /\ a * c + d * f + g * i = 0 /\ b * c + e * f + h * i = 0 /\
  (a = e * i - f * h /\ b = f * g - d * i /\ c = d * h - e * g /\
   d = c * h - b * i /\ e = a * i - c * g /\ f = b * g - a * h /\
   g = b * f - c * e /\ h = c * d - a * f /\ i = a * e - b * d).
Proof.
  intros (M & O & D). destruct (matrix3_cases Q M) as (a & b & c & d & e & f & g & h & i & ->).
  exists a, b, c, d, e, f, g, h, i. split; [reflexivity|].
  unfold cauchy_green, of_entries, sum3, entries, Id3 in O. cbn in O. injection O as O1 O2 O3 O4 O5 O6 O7 O8 O9.
  unfold det in D. cbn in D.
  assert (D' : a * (e * i - f * h) + b * (f * g - d * i) + c * (d * h - e * g) = 1) by (rewrite <- D; ring). clear D.
  repeat match goal with |- _ /\ _ => split end; try lra.
  - (* Q^T = Q^T (Q adj Q) = adj Q *)
    replace a with (a * 1) by ring. rewrite <- D'.
    transitivity ((a*a+d*d+g*g) * (e*i-f*h) + (a*b+d*e+g*h) * (f*g-d*i) + (a*c+d*f+g*i) * (d*h-e*g)); [ring|]. rewrite O1, O2, O3. ring.
  - replace b with (b * 1) by ring. rewrite <- D'.
    transitivity ((b*a+e*d+h*g) * (e*i-f*h) + (b*b+e*e+h*h) * (f*g-d*i) + (b*c+e*f+h*i) * (d*h-e*g)); [ring|]. rewrite O4, O5, O6. ring.
  - replace c with (c * 1) by ring. rewrite <- D'.
    transitivity ((c*a+f*d+i*g) * (e*i-f*h) + (c*b+f*e+i*h) * (f*g-d*i) + (c*c+f*f+i*i) * (d*h-e*g)); [ring|]. rewrite O7, O8, O9. ring.
  - replace d with (d * 1) by ring. rewrite <- D'.
    transitivity ((a*a+d*d+g*g) * (c*h-b*i) + (a*b+d*e+g*h) * (a*i-c*g) + (a*c+d*f+g*i) * (b*g-a*h)); [ring|]. rewrite O1, O2, O3. ring.
  - replace e with (e * 1) by ring. rewrite <- D'.
    transitivity ((b*a+e*d+h*g) * (c*h-b*i) + (b*b+e*e+h*h) * (a*i-c*g) + (b*c+e*f+h*i) * (b*g-a*h)); [ring|]. rewrite O4, O5, O6. ring.
  - replace f with (f * 1) by ring. rewrite <- D'.
    transitivity ((c*a+f*d+i*g) * (c*h-b*i) + (c*b+f*e+i*h) * (a*i-c*g) + (c*c+f*f+i*i) * (b*g-a*h)); [ring|]. rewrite O7, O8, O9. ring.
  - replace g with (g * 1) by ring. rewrite <- D'.
    transitivity ((a*a+d*d+g*g) * (b*f-c*e) + (a*b+d*e+g*h) * (c*d-a*f) + (a*c+d*f+g*i) * (a*e-b*d)); [ring|]. rewrite O1, O2, O3. ring.
  - replace h with (h * 1) by ring. rewrite <- D'.
    transitivity ((b*a+e*d+h*g) * (b*f-c*e) + (b*b+e*e+h*h) * (c*d-a*f) + (b*c+e*f+h*i) * (a*e-b*d)); [ring|]. rewrite O4, O5, O6. ring.
  - replace i with (i * 1) by ring. rewrite <- D'.
    transitivity ((c*a+f*d+i*g) * (b*f-c*e) + (c*b+f*e+i*h) * (c*d-a*f) + (c*c+f*f+i*i) * (a*e-b*d)); [ring|]. rewrite O7, O8, O9. ring.
Qed.
