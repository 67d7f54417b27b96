(** The quadratic form of the stiffness (C93). *)

From Coq Require Import ZArith Reals Lra Lia.
From Coquelicot Require Import Coquelicot.
From Coq Require Import List Arith Bool.
From Verif Require Import GridGeoModel ShapeModel ShapeSpec ShapeProofs ShapeGaussProofs LinAlg LinAlgProofs BarycentricModel MappingSpec MappingProofs TensorModel TensorSpec
  MaterialModel MaterialSpec MaterialProofs MaterialProperties SparseModel SparseProofs Sums HyperModel HyperSpec HyperProofs HyperProofs2 HyperProofs3 HyperProofs4 HyperProperties
  SpectrumProofs StabilitySpec.
Import ListNotations.
Open Scope R_scope.

(** ** One Gauss node *)
Definition strain_voigt (F G : list (list R)) (alpha : nat) : R := nth alpha (voigt_strain (entries (strain_rate F G))) 0.

Lemma geometric_nodes S (da : nat -> R) (V D : nat -> nat -> R) c l :
  Rsum (map (fun b => geometric S da (D b) * V b c) l) = geometric S da (fun k => Rsum (map (fun b => V b c * D b k) l)).
Proof.
  unfold geometric, sum3. induction l as [|b l IH]; cbn [map Rsum fold_right]; [ring|]. change (fold_right Rplus 0) with Rsum. rewrite IH. ring.
Qed.

Lemma gauss_row m N x v row g a c : field N 3 x -> field N 3 v -> sound (length row) g -> (a < length row)%nat -> (c < 3)%nat ->
  let F := gradient x row g in let G := gradient v row g in
  Rsum (map (fun b => sum3 (fun k => entries (gauss_block m (gather x row) a b g) c k * entries v (nth b row 0%nat) k)) (seq 0 (length row))) =
  jacobian_determinant g * weight g *
    (geometric (PK2_stress m (det F) (cauchy_green F)) (entries (dN_dx g) a) (entries G c) +
     sum6 (fun alpha => entries (B F (nth a (dN_dx g) [])) alpha c *
       sum6 (fun beta => entries (PK2_stress_jacobian m (det F) (cauchy_green F)) alpha beta * strain_voigt F G beta))).
Proof.
  intros Fx Fv Sg Ha Hc F G. set (n := length row) in *.
  assert (Lg : length (gather x row) = n) by apply map_length.
  set (S := PK2_stress m (det F) (cauchy_green F)). set (D := PK2_stress_jacobian m (det F) (cauchy_green F)).
  rewrite (Rsum_ext _ _ (fun b => jacobian_determinant g * weight g * (geometric S (entries (dN_dx g) a) (entries (dN_dx g) b) * entries (gather v row) b c +
     sum6 (fun alpha => entries (B F (nth a (dN_dx g) [])) alpha c * sum6 (fun beta => entries D alpha beta *
       sum3 (fun k => entries (B F (nth b (dN_dx g) [])) beta k * entries (gather v row) b k)))))).
  2:{ intros b Hb. apply in_seq in Hb. destruct (gauss_block_spec m (gather x row) g n a b Lg Sg Ha ltac:(lia)) as [_ E].
      unfold sum3 at 1. rewrite !E by lia. change (of_entries (grad n (entries (gather x row)) (entries (dN_dx g)))) with F. fold S D.
      rewrite <- !(gather_entries v row b) by lia. unfold material_block. fold D. set (q := geometric _ _ _).
      assert (Q : forall u : nat -> R, sum3 (fun k => delta c k * u k) = u c).
      { intros u. unfold sum3, delta. destruct c as [|[|[|]]]; try lia; cbn [Nat.eqb]; ring. }
      rewrite <- (Q (entries (gather v row) b)). unfold sum3, sum6. ring. }
  rewrite Rsum_scal_l. f_equal. rewrite Rsum_plus. f_equal.
  - rewrite geometric_nodes. unfold geometric. apply sum3_ext. intros k Hk. apply sum3_ext. intros l Hl. f_equal.
    unfold G. rewrite gradient_entries by assumption. reflexivity.
  - rewrite <- (linear_in_nodes (fun alpha => entries (B F (nth a (dN_dx g) [])) alpha c) (entries D)
      (fun beta b => sum3 (fun k => entries (B F (nth b (dN_dx g) [])) beta k * entries (gather v row) b k)) (seq 0 n)).
    assert (Q : forall beta, (beta < 6)%nat -> Rsum (map (fun b => sum3 (fun k => entries (B F (nth b (dN_dx g) [])) beta k * entries (gather v row) b k)) (seq 0 n)) = strain_voigt F G beta).
    { intros beta Hb. symmetry. exact (strain_of_nodes F (dN_dx g) (entries (gather v row)) (seq 0 n) beta Hb). }
    apply sum6_ext. intros alpha _. f_equal. apply sum6_ext. intros beta Hb. f_equal. exact (Q beta Hb).
Qed.

(** Twice the second variation of the energy at a Gauss node. *)
Definition gauss_quadratic (m : material) (F G : list (list R)) : R :=
  sum3 (fun c => geometric (PK2_stress m (det F) (cauchy_green F)) (entries G c) (entries G c)) +
  sum6 (fun alpha => strain_voigt F G alpha * sum6 (fun beta => entries (PK2_stress_jacobian m (det F) (cauchy_green F)) alpha beta * strain_voigt F G beta)).

Lemma gauss_form m N x v row g : field N 3 x -> field N 3 v -> sound (length row) g ->
  Rsum (map (fun a => sum3 (fun c => entries v (nth a row 0%nat) c *
    Rsum (map (fun b => sum3 (fun k => entries (gauss_block m (gather x row) a b g) c k * entries v (nth b row 0%nat) k)) (seq 0 (length row))))) (seq 0 (length row))) =
  jacobian_determinant g * weight g * gauss_quadratic m (gradient x row g) (gradient v row g).
Proof.
  intros Fx Fv Sg. set (n := length row). set (F := gradient x row g). set (G := gradient v row g).
  set (S := PK2_stress m (det F) (cauchy_green F)). set (D := PK2_stress_jacobian m (det F) (cauchy_green F)).
  set (T := fun alpha => sum6 (fun beta => entries D alpha beta * strain_voigt F G beta)).
  rewrite (Rsum_ext _ _ (fun a => jacobian_determinant g * weight g * (sum3 (fun c => entries (gather v row) a c * geometric S (entries (dN_dx g) a) (entries G c)) +
     sum6 (fun alpha => T alpha * sum3 (fun c => entries (B F (nth a (dN_dx g) [])) alpha c * entries (gather v row) a c))))).
  2:{ intros a Ha. apply in_seq in Ha. unfold sum3 at 1. unfold n. rewrite !(gauss_row m N x v row g a) by (first [assumption | lia]). fold F G S D.
      rewrite <- !(gather_entries v row a) by lia. fold (T 0%nat) (T 1%nat) (T 2%nat) (T 3%nat) (T 4%nat) (T 5%nat). unfold sum3.
      change (sum6 (fun alpha => entries (B F (nth a (dN_dx g) [])) alpha 0 * sum6 (fun beta => entries D alpha beta * strain_voigt F G beta))) with (sum6 (fun alpha => entries (B F (nth a (dN_dx g) [])) alpha 0 * T alpha)).
      change (sum6 (fun alpha => entries (B F (nth a (dN_dx g) [])) alpha 1 * sum6 (fun beta => entries D alpha beta * strain_voigt F G beta))) with (sum6 (fun alpha => entries (B F (nth a (dN_dx g) [])) alpha 1 * T alpha)).
      change (sum6 (fun alpha => entries (B F (nth a (dN_dx g) [])) alpha 2 * sum6 (fun beta => entries D alpha beta * strain_voigt F G beta))) with (sum6 (fun alpha => entries (B F (nth a (dN_dx g) [])) alpha 2 * T alpha)).
      unfold sum6. ring. }
  rewrite Rsum_scal_l. f_equal. rewrite Rsum_plus. unfold gauss_quadratic. fold S D. f_equal.
  - unfold sum3 at 1 2. rewrite !Rsum_plus.
    assert (Q : forall c, (c < 3)%nat -> Rsum (map (fun a => entries (gather v row) a c * geometric S (entries (dN_dx g) a) (entries G c)) (seq 0 n)) = geometric S (entries G c) (entries G c)).
    { intros c Hc. transitivity (geometric S (fun k => Rsum (map (fun a => entries (gather v row) a c * entries (dN_dx g) a k) (seq 0 n))) (entries G c)).
      - unfold geometric, sum3. induction (seq 0 n) as [|a l IH]; cbn [map Rsum fold_right]; [ring|]. change (fold_right Rplus 0) with Rsum. rewrite IH. ring.
      - unfold geometric. apply sum3_ext. intros k Hk. apply sum3_ext. intros l _. f_equal. f_equal. unfold G. rewrite gradient_entries by assumption. reflexivity. }
    rewrite !Q by lia. reflexivity.
  - transitivity (sum6 (fun alpha => T alpha * Rsum (map (fun a => sum3 (fun c => entries (B F (nth a (dN_dx g) [])) alpha c * entries (gather v row) a c)) (seq 0 n)))).
    + unfold sum6. rewrite !Rsum_plus, !Rsum_scal_l. reflexivity.
    + apply sum6_ext. intros alpha Ha. rewrite Rmult_comm. f_equal.
      symmetry. exact (strain_of_nodes F (dN_dx g) (entries (gather v row)) (seq 0 n) alpha Ha).
Qed.

(** ** The body *)
Lemma Rsum_triples n (f : nat -> R) : Rsum (map f (seq 0 (n * 3))) = Rsum (map (fun p => sum3 (fun c => f (p * 3 + c)%nat)) (seq 0 n)).
Proof.
  induction n as [|n IH]; [reflexivity|]. replace (S n * 3)%nat with (n * 3 + 3)%nat by lia. rewrite seq_app, map_app, Rsum_app, IH.
  rewrite (seq_S n 0), map_app, Rsum_app. f_equal. cbn [seq map Rsum fold_right Nat.add]. unfold sum3.
  replace (n * 3 + 0)%nat with (n * 3)%nat by lia. replace (n * 3 + 1)%nat with (S (n * 3)) by lia. replace (n * 3 + 2)%nat with (S (S (n * 3))) by lia. ring.
Qed.

Lemma quadratic_form m d x v : solid d -> distinct_nodes d -> field (length (positions d)) 3 x -> field (length (positions d)) 3 v ->
  quadratic (length (positions d) * 3) (stiffness m d x) (concat v) =
  Rsum (map (fun row => Rsum (map (fun g => jacobian_determinant g * weight g * gauss_quadratic m (gradient x row g) (gradient v row g)) (quad d row))) (connectivity d)).
Proof.
  intros Sd ND Fx Fv. set (N := length (positions d)) in *. unfold quadratic, stiffness. fold N. rewrite Rsum_triples.
  set (X := fun row a c => Rsum (map (fun b => sum3 (fun k => entries (block m d x row a b) c k * entries v (nth b row 0%nat) k)) (seq 0 (length row)))).
  rewrite (Rsum_ext _ _ (fun p => Rsum (map (fun row => Rsum (map (fun a => if Nat.eqb (nth a row 0%nat) p then sum3 (fun c => entries v p c * X row a c) else 0)
     (seq 0 (length row)))) (connectivity d)))).
  2:{ intros p Hp. unfold sum3 at 1. rewrite !concat_nth by (first [apply Fv | lia]). rewrite !(K_row m d x N v p) by (first [assumption | reflexivity | lia]).
      fold (X). rewrite <- !Rsum_scal_l, <- !Rsum_plus. apply Rsum_ext. intros row _. rewrite <- !Rsum_scal_l, <- !Rsum_plus. apply Rsum_ext. intros a _.
      unfold X, sum3. destruct (Nat.eqb (nth a row 0%nat) p); ring. }
  rewrite Rsum_swap. apply Rsum_ext. intros row Hr. destruct (solid_row d row Sd Hr) as [Hl Hi]. rewrite Rsum_swap.
  rewrite (Rsum_ext _ _ (fun a => sum3 (fun c => entries v (nth a row 0%nat) c * X row a c))).
  2:{ intros a Ha. apply in_seq in Ha. apply (Rsum_delta (fun p => sum3 (fun c => entries v p c * X row a c))).
      apply (proj1 (Forall_forall _ _) Hi). apply nth_In. lia. }
  rewrite (Rsum_ext _ (fun g => _) (fun g => Rsum (map (fun a => sum3 (fun c => entries v (nth a row 0%nat) c *
    Rsum (map (fun b => sum3 (fun k => entries (gauss_block m (gather x row) a b g) c k * entries v (nth b row 0%nat) k)) (seq 0 (length row))))) (seq 0 (length row)))) (quad d row)).
  2:{ intros g Hg. symmetry. apply (gauss_form m N x v row g Fx Fv). rewrite Hl. exact (proj1 (Forall_forall _ _) (quad_sound d row) g Hg). }
  rewrite Rsum_swap. apply Rsum_ext. intros a Ha. apply in_seq in Ha. unfold X, sum3 at 1 3. rewrite !Rsum_plus, !Rsum_scal_l. 
  assert (Q : forall c, Rsum (map (fun b => sum3 (fun k => entries (block m d x row a b) c k * entries v (nth b row 0%nat) k)) (seq 0 (length row))) =
    Rsum (map (fun g => Rsum (map (fun b => sum3 (fun k => entries (gauss_block m (gather x row) a b g) c k * entries v (nth b row 0%nat) k)) (seq 0 (length row)))) (quad d row))).
  { intros c. rewrite Rsum_swap. apply Rsum_ext. intros b Hb. apply in_seq in Hb. unfold sum3. rewrite !(block_spec m d x row a b) by (first [exact Hl | lia]).
    rewrite !Rsum_plus, !Rsum_scal_r. reflexivity. }
  rewrite !Q. reflexivity.
Qed.
Lemma product_row m d x v p c : solid d -> distinct_nodes d -> field (length (positions d)) 3 x -> field (length (positions d)) 3 v -> (c < 3)%nat ->
  Rsum (map (fun j => stiffness m d x (p * 3 + c) j * nth j (concat v) 0) (seq 0 (length (positions d) * 3))) =
  Rsum (map (fun row => Rsum (map (fun a => if Nat.eqb (nth a row 0%nat) p then
    Rsum (map (fun g => jacobian_determinant g * weight g *
      (geometric (PK2_stress m (det (gradient x row g)) (cauchy_green (gradient x row g))) (entries (dN_dx g) a) (entries (gradient v row g) c) +
       sum6 (fun alpha => entries (B (gradient x row g) (nth a (dN_dx g) [])) alpha c *
         sum6 (fun beta => entries (PK2_stress_jacobian m (det (gradient x row g)) (cauchy_green (gradient x row g))) alpha beta * strain_voigt (gradient x row g) (gradient v row g) beta))))
      (quad d row)) else 0) (seq 0 (length row)))) (connectivity d)).
Proof.
  intros Sd ND Fx Fv Hc. set (N := length (positions d)) in *. unfold stiffness. fold N.
  rewrite (K_row m d x N v p c) by (first [assumption | reflexivity]). apply Rsum_ext. intros row Hr. destruct (solid_row d row Sd Hr) as [Hl Hi].
  apply Rsum_ext. intros a Ha. apply in_seq in Ha. destruct (Nat.eqb (nth a row 0%nat) p); [|reflexivity].
  rewrite (Rsum_ext _ (fun g => _) (fun g => Rsum (map (fun b => sum3 (fun k => entries (gauss_block m (gather x row) a b g) c k * entries v (nth b row 0%nat) k)) (seq 0 (length row)))) (quad d row)).
  2:{ intros g Hg. symmetry. apply (gauss_row m N x v row g a c Fx Fv); [|lia|exact Hc]. rewrite Hl. exact (proj1 (Forall_forall _ _) (quad_sound d row) g Hg). }
  rewrite Rsum_swap. apply Rsum_ext. intros b Hb. apply in_seq in Hb. unfold sum3. rewrite !(block_spec m d x row a b) by (first [exact Hl | lia]).
  rewrite !Rsum_plus, !Rsum_scal_r. reflexivity.
Qed.
