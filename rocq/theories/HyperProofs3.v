From Coq Require Import ZArith Reals Lra Lia.
From Coquelicot Require Import Coquelicot.
From Coq Require Import List Arith Bool.
From Verif Require Import GridGeoModel ShapeModel ShapeSpec ShapeProofs ShapeFieldProofs LinAlg LinAlgProofs RectModel BarycentricModel MappingSpec MappingProofs TensorModel TensorSpec
  MaterialModel MaterialSpec MaterialProofs MaterialProperties SparseModel SparseProofs Sums TractionModel TractionProofs HyperModel HyperSpec HyperProofs HyperProofs2.
Import ListNotations.
Open Scope R_scope.

(** ** Stiffness at one Gauss node *)

Definition sum6 (f : nat -> R) : R := f 0%nat + f 1%nat + f 2%nat + f 3%nat + f 4%nat + f 5%nat.
Definition matrix6 (M : list (list R)) : Prop := length M = 6%nat /\ Forall (fun row => length row = 6%nat) M.

Lemma sum6_ext f g : (forall i, (i < 6)%nat -> f i = g i) -> sum6 f = sum6 g.
Proof. intros H. unfold sum6. rewrite !H by lia. reflexivity. Qed.

Lemma jacobian_matrix6 m J C : matrix6 (PK2_stress_jacobian m J C).
Proof.
  unfold PK2_stress_jacobian. destruct (kind_of m).
  - cbn zeta. unfold symmetric_dyad_1, symmetric_dyad_2, madd, mscale, vadd, vscale. cbn [map map2]. split; [reflexivity|repeat constructor].
  - split; [reflexivity|repeat constructor].
Qed.
Lemma len6 (A : Type) (l : list A) : length l = 6%nat -> exists a b c d e f, l = [a; b; c; d; e; f].
Proof. intros H. destruct l as [|a [|b [|c [|d [|e [|f [|]]]]]]]; try discriminate. exists a, b, c, d, e, f. reflexivity. Qed.

Lemma mult_entries D v alpha : matrix6 D -> length v = 6%nat -> (alpha < 6)%nat ->
  nth alpha (mult D v) 0 = sum6 (fun beta => entries D alpha beta * nth beta v 0).
Proof.
  intros [LD FD] Lv Ha. destruct (len6 _ v Lv) as (v0 & v1 & v2 & v3 & v4 & v5 & ->).
  assert (H : length (nth alpha D []) = 6%nat) by (apply (proj1 (Forall_forall _ _) FD), nth_In; lia).
  unfold mult. set (v := [v0; v1; v2; v3; v4; v5]).
  rewrite (nth_indep _ 0 ((fun row => fold_right Rplus 0 (map (fun p => fst p * snd p) (combine row v))) [])) by (rewrite map_length; lia).
  rewrite (map_nth (fun row => fold_right Rplus 0 (map (fun p => fst p * snd p) (combine row v)))).
  unfold entries. destruct (len6 _ _ H) as (a & b & c & d & e' & f & ->). unfold sum6, v. cbn. ring.
Qed.

Lemma B_matrix F dx : length (B F dx) = 6%nat /\ Forall (fun row => length row = 3%nat) (B F dx).
Proof. split; [reflexivity|repeat constructor]. Qed.

(** Entries of Ba^T D Bb *)
Lemma triple_product A D A' i j : length A = 6%nat -> Forall (fun row => length row = 3%nat) A ->
  length A' = 6%nat -> matrix6 D -> (i < 3)%nat -> (j < 3)%nat ->
  entries (matmul 3 (matmul 6 (transpose 3 A) D) A') i j =
  sum6 (fun alpha => entries A alpha i * sum6 (fun beta => entries D alpha beta * entries A' beta j)).
Proof.
  intros LA FA LA' [LD FD] Hi Hj. unfold entries at 1. unfold matmul at 1.
  set (P := matmul 6 (transpose 3 A) D).
  assert (LP : length P = 3%nat) by (unfold P, matmul, transpose; rewrite !map_length; apply seq_length).
  assert (EP : nth i P [] = map (fun k => vdot (column A i) (column D k)) (seq 0 6)).
  { unfold P, matmul, transpose. rewrite map_map.
    rewrite (nth_indep _ [] ((fun x => map (fun k => vdot (column A x) (column D k)) (seq 0 6)) 0%nat)) by (rewrite map_length, seq_length; exact Hi).
    rewrite (map_nth (fun x => map (fun k => vdot (column A x) (column D k)) (seq 0 6))), seq_nth by exact Hi. reflexivity. }
  rewrite (nth_indep _ [] ((fun row => map (fun k => vdot row (column A' k)) (seq 0 3)) [])) by (rewrite map_length; lia).
  rewrite (map_nth (fun row => map (fun k => vdot row (column A' k)) (seq 0 3))), EP.
  rewrite nth_map_seq by exact Hj. cbn [Nat.add].
  assert (LC : forall M k, length M = 6%nat -> length (column M k) = 6%nat) by (intros M k H; unfold column; rewrite map_length; exact H).
  rewrite (vdot_sum _ _ 6) by (first [rewrite map_length; apply seq_length | apply LC; assumption]).
  rewrite (Rsum_ext _ _ (fun k => grad 6 (entries A) (entries D) i k * entries A' k j)).
  - unfold grad. cbn [seq map Rsum fold_right]. unfold sum6. ring.
  - intros k Hk. apply in_seq in Hk. rewrite nth_column, nth_map_seq by lia. cbn [Nat.add].
    rewrite (vdot_columns A D i k 6) by assumption. reflexivity.
Qed.

Lemma mscale_entries s M i j : entries (mscale s M) i j = s * entries M i j.
Proof.
  unfold entries, mscale.
  assert (V : forall r, nth j (vscale s r) 0 = s * nth j r 0) by (intros r; unfold vscale; apply (nth_map0 (Rmult s)); ring).
  rewrite <- V. f_equal. change (@nil R) with (vscale s []) at 1. apply map_nth.
Qed.
Lemma mscale_matrix s M : matrix3 M -> matrix3 (mscale s M).
Proof.
  intros [L F]. split; [unfold mscale; rewrite map_length; exact L|]. apply Forall_forall. intros r Hr. apply in_map_iff in Hr.
  destruct Hr as (q & <- & Hq). unfold vscale. rewrite map_length. apply (proj1 (Forall_forall _ _) F q Hq).
Qed.

(** da . S db *)
Definition geometric (S : list (list R)) (da db : nat -> R) : R := sum3 (fun k => sum3 (fun l => da k * entries S k l * db l)).

Lemma geometric_vdot S da db : matrix3 S -> length da = 3%nat -> length db = 3%nat ->
  vdot da (matvec S db) = geometric S (fun k => nth k da 0) (fun k => nth k db 0).
Proof.
  intros MS La Lb. destruct (matrix3_cases S MS) as (? & ? & ? & ? & ? & ? & ? & ? & ? & ->).
  destruct da as [|? [|? [|? [|]]]]; try discriminate. destruct db as [|? [|? [|? [|]]]]; try discriminate.
  unfold geometric, vdot, matvec, Rsum, sum3, entries. cbn. unfold vdot, Rsum. cbn. ring.
Qed.

Definition material_block (m : material) (F : list (list R)) (da db : list R) (i j : nat) : R :=
  sum6 (fun alpha => entries (B F da) alpha i *
    sum6 (fun beta => entries (PK2_stress_jacobian m (det F) (cauchy_green F)) alpha beta * entries (B F db) beta j)).

Lemma gauss_block_spec m nodes g n a b : length nodes = n -> sound n g -> (a < n)%nat -> (b < n)%nat ->
  let F := of_entries (grad n (entries nodes) (entries (dN_dx g))) in
  let da := nth a (dN_dx g) [] in let db := nth b (dN_dx g) [] in
  matrix3 (gauss_block m nodes a b g) /\
  forall i j, (i < 3)%nat -> (j < 3)%nat -> entries (gauss_block m nodes a b g) i j =
    jacobian_determinant g * weight g *
    (geometric (PK2_stress m (det F) (cauchy_green F)) (entries (dN_dx g) a) (entries (dN_dx g) b) * delta i j + material_block m F da db i j).
Proof.
  intros Ln [Lg Rg] Ha Hb F da db. unfold gauss_block. rewrite (deformation_entries nodes (dN_dx g) n) by assumption. fold F.
  assert (MF : matrix3 F) by apply of_entries_matrix3. rewrite (right_cauchy_green_entries F MF). fold da db.
  assert (La : length da = 3%nat) by (apply rows3_nth; [exact Rg|lia]). assert (Lb : length db = 3%nat) by (apply rows3_nth; [exact Rg|lia]).
  rewrite geometric_vdot by (first [apply stress_matrix3, cauchy_green_matrix | assumption]).
  set (P := matmul 3 _ (B F db)). set (q := geometric _ _ _).
  assert (MI : matrix3 Id3) by apply (of_entries_matrix3 delta).
  assert (MP : matrix3 P).
  { split; [unfold P, matmul, transpose; rewrite !map_length; apply seq_length|]. apply Forall_forall. intros r Hr. unfold P, matmul in Hr.
    apply in_map_iff in Hr. destruct Hr as (s & <- & _). rewrite map_length. apply seq_length. }
  destruct (madd_spec _ P (mscale_matrix q _ MI) MP) as [M1 E1].
  split; [apply mscale_matrix, mscale_matrix, M1|]. intros i j Hi Hj. rewrite !mscale_entries, E1, mscale_entries.
  replace (entries Id3 i j) with (delta i j) by (symmetry; change Id3 with (of_entries delta); apply entries_of_entries; assumption).
  unfold P. destruct (B_matrix F da) as [L1 L2]. destruct (B_matrix F db) as [L3 L4].
  rewrite triple_product by (first [assumption | apply jacobian_matrix6]). fold (material_block m F da db i j).
  change (geometric (PK2_stress m (det F) (cauchy_green F)) (entries (dN_dx g) a) (entries (dN_dx g) b)) with q. ring.
Qed.

(** Symmetry of the blocks. *)
Lemma geometric_symmetric S da db : symmetric S -> geometric S da db = geometric S db da.
Proof. intros H. unfold geometric, sum3. rewrite (H 1%nat 0%nat), (H 2%nat 0%nat), (H 2%nat 1%nat) by lia. ring. Qed.
Lemma material_block_symmetric m F da db i j : material_block m F da db i j = material_block m F db da j i.
Proof.
  unfold material_block. set (D := PK2_stress_jacobian _ _ _).
  assert (SD : forall a b, (a < 6)%nat -> (b < 6)%nat -> entries D a b = entries D b a) by (intros; apply C53_tangent_symmetric; assumption).
  unfold sum6.
  rewrite (SD 1%nat 0%nat), (SD 2%nat 0%nat), (SD 3%nat 0%nat), (SD 4%nat 0%nat), (SD 5%nat 0%nat), (SD 2%nat 1%nat), (SD 3%nat 1%nat), (SD 4%nat 1%nat), (SD 5%nat 1%nat),
    (SD 3%nat 2%nat), (SD 4%nat 2%nat), (SD 5%nat 2%nat), (SD 4%nat 3%nat), (SD 5%nat 3%nat), (SD 5%nat 4%nat) by lia.
  generalize (entries D) (entries (B F da)) (entries (B F db)). intros. ring.
Qed.
Lemma gauss_block_symmetric m nodes g n a b i j : length nodes = n -> sound n g -> (a < n)%nat -> (b < n)%nat -> (i < 3)%nat -> (j < 3)%nat ->
  entries (gauss_block m nodes a b g) i j = entries (gauss_block m nodes b a g) j i.
Proof.
  intros Ln Sg Ha Hb Hi Hj.
  destruct (gauss_block_spec m nodes g n a b Ln Sg Ha Hb) as [_ E1]. destruct (gauss_block_spec m nodes g n b a Ln Sg Hb Ha) as [_ E2].
  rewrite E1, E2 by assumption. f_equal. f_equal.
  - rewrite geometric_symmetric by (apply stress_symmetric; [apply cauchy_green_matrix|apply cauchy_green_symmetric]).
    unfold delta. rewrite (Nat.eqb_sym i j). reflexivity.
  - apply material_block_symmetric.
Qed.

(** The strain rate of the nodal velocities V is the sum of B_b V_b. *)
Lemma strain_of_nodes F dN V l alpha : (alpha < 6)%nat ->
  nth alpha (voigt_strain (entries (strain_rate F (of_entries (fun i j => Rsum (map (fun b => V b i * entries dN b j) l)))))) 0 =
  Rsum (map (fun b => sum3 (fun c => entries (B F (nth b dN [])) alpha c * V b c)) l).
Proof.
  intros Ha.
  assert (E : forall i j, (i < 3)%nat -> (j < 3)%nat ->
    entries (strain_rate F (of_entries (fun i j => Rsum (map (fun b => V b i * entries dN b j) l)))) i j =
    Rsum (map (fun b => / 2 * (sum3 (fun k => entries F k i * (V b k * entries dN b j)) + sum3 (fun k => V b k * entries dN b i * entries F k j))) l)).
  { intros i j Hi Hj. unfold strain_rate. rewrite entries_of_entries by assumption. unfold sum3. rewrite !entries_of_entries by lia.
    induction l as [|b l IH]; cbn [map Rsum fold_right]; [ring|]. change (fold_right Rplus 0) with Rsum. rewrite <- IH. ring. }
  unfold voigt_strain, voigt.
  destruct alpha as [|[|[|[|[|[|]]]]]]; try lia; cbn [map nth fst snd Nat.eqb]; rewrite E by lia; rewrite <- ?Rsum_scal_l; apply Rsum_ext; intros b _;
    unfold sum3, entries, B, e; cbn [nth]; field.
Qed.

(** F S' d *)
Lemma stress_of_nodes F S dx c : symmetric S -> (c < 3)%nat ->
  sum3 (fun k => sum3 (fun l => entries F c l * entries S l k) * nth k dx 0) =
  sum6 (fun alpha => entries (B F dx) alpha c * nth alpha (voigt_stress (entries S)) 0).
Proof.
  intros H Hc. unfold sum3, sum6, voigt_stress, voigt. cbn [map nth fst snd].
  rewrite (H 1%nat 0%nat), (H 2%nat 0%nat), (H 2%nat 1%nat) by lia.
  destruct c as [|[|[|]]]; try lia; unfold B, e, entries; cbn [nth]; ring.
Qed.

Lemma linear_in_nodes A D (q : nat -> nat -> R) l :
  sum6 (fun alpha => A alpha * sum6 (fun beta => D alpha beta * Rsum (map (q beta) l))) =
  Rsum (map (fun b => sum6 (fun alpha => A alpha * sum6 (fun beta => D alpha beta * q beta b))) l).
Proof.
  induction l as [|b l IH]; cbn [map Rsum fold_right]; [unfold sum6; ring|]. change (fold_right Rplus 0) with Rsum. rewrite <- IH. unfold sum6. ring.
Qed.

(** Derivative of the forces at a Gauss node. *)
Section GaussDerivative.
Variables (m : material) (N : nat) (x v : list (list R)) (row : list nat) (g : gauss_node).
Hypothesis Fx : field N 3 x.
Hypothesis Fv : field N 3 v.
Hypothesis Sg : sound (length row) g.
Hypothesis positive : 0 < det (gradient x row g).

Lemma gauss_force_derive a c : (a < length row)%nat -> (c < 3)%nat ->
  is_derive (fun t => entries (gauss_forces m (gather (displaced x v t) row) g) a c) 0
    (Rsum (map (fun b => sum3 (fun k => entries (gauss_block m (gather x row) a b g) c k * entries v (nth b row 0%nat) k)) (seq 0 (length row)))).
Proof.
  intros Ha Hc. set (n := length row) in *.
  assert (Lg : forall y, length (gather y row) = n) by (intros; apply map_length).
  set (F := fun t => gradient (displaced x v t) row g). set (G := gradient v row g).
  assert (F0 : F 0 = gradient x row g) by exact (gradient_displaced_0 N x v row g Fx Fv).
  assert (DF : matrix_derive F G) by exact (gradient_derive N x v row g Fx Fv).
  destruct (C53_deformation_gradient m F G) as (S' & DS & SS & VS).
  { intros t. exact (gradient_matrix (displaced x v t) row g). } { exact DF. } { rewrite F0. exact positive. }
  set (S := fun t => PK2_stress m (det (F t)) (cauchy_green (F t))).
  apply (is_derive_ext (fun t => jacobian_determinant g * weight g *
     sum3 (fun k => sum3 (fun l => entries (F t) c l * entries (S t) l k) * entries (dN_dx g) a k))).
  { intros t. destruct (gauss_forces_spec m (gather (displaced x v t) row) g n (Lg _) Sg) as (_ & _ & E). rewrite E by assumption.
    f_equal. apply sum3_ext. intros k Hk. f_equal. unfold stress_power, product. rewrite entries_of_entries by assumption. reflexivity. }
  assert (D : is_derive (fun t => sum3 (fun k => sum3 (fun l => entries (F t) c l * entries (S t) l k) * entries (dN_dx g) a k)) 0
     (sum3 (fun k => sum3 (fun l => entries G c l * entries (S 0) l k + entries (F 0) c l * entries S' l k) * entries (dN_dx g) a k))).
  { apply is_derive_sum3. intros k Hk.
    evar_last.
    - apply (is_derive_mult (fun t => sum3 (fun l => entries (F t) c l * entries (S t) l k)) (fun _ => entries (dN_dx g) a k)).
      + apply is_derive_sum3. intros l Hl. apply (is_derive_mult (fun t => entries (F t) c l) (fun t => entries (S t) l k)).
        * apply DF; assumption.
        * apply DS; assumption.
        * intros; apply Rmult_comm.
      + apply @is_derive_const.
      + intros; apply Rmult_comm.
    - transitivity (sum3 (fun l => entries G c l * entries (S 0) l k + entries (F 0) c l * entries S' l k) * entries (dN_dx g) a k +
        sum3 (fun l => entries (F 0) c l * entries (S 0) l k) * 0); [reflexivity|ring]. }
  evar_last.
  - apply (is_derive_scal _ _ (jacobian_determinant g * weight g) _ D).
  - rewrite F0 in VS |- *. change (S 0) with (PK2_stress m (det (F 0)) (cauchy_green (F 0))). rewrite F0. clear D DS DF. clear S.
    set (F1 := gradient x row g) in *. set (S0 := PK2_stress m (det F1) (cauchy_green F1)).
    assert (SY : symmetric S0) by (apply stress_symmetric; [apply cauchy_green_matrix|apply cauchy_green_symmetric]).
    rewrite (Rsum_ext _ _ (fun b => jacobian_determinant g * weight g *
       (geometric S0 (entries (dN_dx g) a) (entries (dN_dx g) b) * entries v (nth b row 0%nat) c +
        sum6 (fun alpha => entries (B F1 (nth a (dN_dx g) [])) alpha c * sum6 (fun beta => entries (PK2_stress_jacobian m (det F1) (cauchy_green F1)) alpha beta *
            sum3 (fun k => entries (B F1 (nth b (dN_dx g) [])) beta k * entries v (nth b row 0%nat) k)))))).
    + rewrite Rsum_scal_l. f_equal. rewrite Rsum_plus.
      rewrite <- (linear_in_nodes (fun alpha => entries (B F1 (nth a (dN_dx g) [])) alpha c) (entries (PK2_stress_jacobian m (det F1) (cauchy_green F1)))
                   (fun beta b => sum3 (fun k => entries (B F1 (nth b (dN_dx g) [])) beta k * entries v (nth b row 0%nat) k))).
      assert (EG : G = of_entries (fun i j => Rsum (map (fun b => entries v (nth b row 0%nat) i * entries (dN_dx g) b j) (seq 0 n)))).
      { unfold G, gradient. apply of_entries_ext. intros i j Hi Hj. unfold grad. fold n. apply Rsum_ext. intros b Hb. apply in_seq in Hb.
        rewrite gather_entries by (unfold n in *; lia). reflexivity. }
      assert (T1 : sum3 (fun k => sum3 (fun l => entries G c l * entries S0 l k) * entries (dN_dx g) a k) =
                   Rsum (map (fun b => geometric S0 (entries (dN_dx g) a) (entries (dN_dx g) b) * entries v (nth b row 0%nat) c) (seq 0 n))).
      { rewrite EG. unfold sum3. rewrite !entries_of_entries by lia. unfold geometric, sum3.
        rewrite (SY 1%nat 0%nat), (SY 2%nat 0%nat), (SY 2%nat 1%nat) by lia.
        generalize (seq 0 n). intros l. induction l as [|b l IH]; cbn [map Rsum fold_right]; [ring|].
        change (fold_right Rplus 0) with Rsum. rewrite <- IH. ring. }
      rewrite <- T1.
      rewrite (sum6_ext _ (fun alpha => entries (B F1 (nth a (dN_dx g) [])) alpha c * nth alpha (voigt_stress (entries S')) 0)).
      * rewrite <- stress_of_nodes by assumption. unfold sum3, entries. ring.
      * intros alpha Hal. f_equal. rewrite VS, mult_entries by (first [assumption | apply jacobian_matrix6 | reflexivity]).
        apply sum6_ext. intros beta Hb. f_equal. fold G. rewrite EG. symmetry. apply (strain_of_nodes F1 (dN_dx g) (fun b => entries v (nth b row 0%nat))). exact Hb.
    + intros b Hb. apply in_seq in Hb.
      destruct (gauss_block_spec m (gather x row) g n a b (Lg x) Sg Ha) as [_ E]; [lia|].
      rewrite (sum3_ext _ (fun k => jacobian_determinant g * weight g * (geometric S0 (entries (dN_dx g) a) (entries (dN_dx g) b) * delta c k +
          material_block m F1 (nth a (dN_dx g) []) (nth b (dN_dx g) []) c k) * entries v (nth b row 0%nat) k))
        by (intros k Hk; rewrite E by assumption; reflexivity).
      unfold material_block. generalize (entries (PK2_stress_jacobian m (det F1) (cauchy_green F1))).
      generalize (entries (B F1 (nth a (dN_dx g) []))), (entries (B F1 (nth b (dN_dx g) []))). intros Ba Bb D'.
      unfold sum3, sum6. destruct c as [|[|[|]]]; try lia; unfold delta; cbn [Nat.eqb]; ring.
Qed.
End GaussDerivative.
