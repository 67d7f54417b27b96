(** C52, C53, C54: the hyperelastic materials. *)

From Coq Require Import ZArith Reals Lra Lia.
From Coquelicot Require Import Coquelicot.
From Coq Require Import List Arith Bool.
From Verif Require Import GridGeoModel ShapeModel LinAlg TensorModel TensorSpec MaterialModel MaterialSpec MaterialProofs.
Import ListNotations.
Open Scope R_scope.

(** ** Paths C + t H *)

Lemma line_matrix3 C H t : matrix3 (line C H t).
Proof. apply of_entries_matrix3. Qed.
Lemma line_0 C H : matrix3 C -> line C H 0 = C.
Proof.
  intros M. rewrite (matrix3_entries C M) at 2. unfold line. apply of_entries_ext. intros. ring.
Qed.
Lemma line_derive C H i j : (i < 3)%nat -> (j < 3)%nat -> is_derive (fun t => entries (line C H t) i j) 0 (entries H i j).
Proof.
  intros Hi Hj. apply (is_derive_ext (fun t => entries C i j + t * entries H i j)).
  - intros t. unfold line. rewrite entries_of_entries by assumption. reflexivity.
  - auto_derive; [exact I|ring].
Qed.

(** J = sqrt (det C) along a path of strains. *)
Lemma sqrt_det_derive C H :
  matrix3 C -> symmetric C -> symmetric H -> 0 < det C ->
  is_derive (fun t => sqrt (det (line C H t))) 0
    (sqrt (det C) * sum3 (fun i => sum3 (fun j => adj (entries C) i j / det3 (entries C) * (/ 2 * entries H i j)))).
Proof.
  intros MC SC SH P.
  pose proof (det_derive (fun i j t => entries (line C H t) i j) (fun i j => entries H i j) (line_derive C H)) as D.
  assert (D' : is_derive (fun t => det (line C H t)) 0 (sum3 (fun i => sum3 (fun j => adj (entries C) j i * entries H i j)))).
  { apply (is_derive_ext (fun t => det3 (entries (line C H t)))).
    - intros t. symmetry. apply det_entries, line_matrix3.
    - cbv beta in D. evar_last; [exact D|]. cbv beta.
      change (fun i j => entries (line C H 0) i j) with (entries (line C H 0)). rewrite line_0 by assumption. reflexivity. }
  assert (P3 : 0 < det3 (entries C)) by (rewrite <- det_entries by assumption; assumption).
  evar_last.
  - apply (is_derive_comp sqrt (fun t => det (line C H t))); [|exact D'].
    apply is_derive_Reals. apply derivable_pt_lim_sqrt. rewrite line_0 by assumption. exact P.
  - rewrite line_0 by assumption. cbn. unfold mult; cbn.
    assert (Q : 0 < sqrt (det C)) by (apply sqrt_lt_R0; assumption).
    rewrite (det_entries C MC) in *.
    assert (Z : forall i j, (i < 3)%nat -> (j < 3)%nat -> adj (entries C) i j = adj (entries C) j i)
      by (apply adj_symmetric; exact SC).
    unfold sum3. rewrite (Z 1%nat 0%nat), (Z 2%nat 0%nat), (Z 2%nat 1%nat) by lia. 
    assert (E : det3 (entries C) = sqrt (det3 (entries C)) * sqrt (det3 (entries C))) by (symmetry; apply sqrt_sqrt; lra).
    revert E Q. generalize (sqrt (det3 (entries C))). generalize (det3 (entries C)). intros d s -> Q. field. lra.
Qed.

(** C52: the stress is twice the derivative of the energy: dPsi(C)[H] = S : (H / 2) for every direction H. *)
Theorem C52_stress_is_energy_derivative :
  forall m C H, matrix3 C -> symmetric C -> symmetric H -> 0 < det C ->
    is_derive (fun t => energy_of m (line C H t)) 0 (/ 2 * double_dot (stress_of m C) H).
Proof.
  intros m C H MC SC SH P.
  set (H2 := of_entries (fun i j => / 2 * entries H i j)).
  assert (E2 : forall i j, (i < 3)%nat -> (j < 3)%nat -> entries H2 i j = / 2 * entries H i j)
    by (intros; apply entries_of_entries; assumption).
  assert (S2 : forall i j, (i < 3)%nat -> (j < 3)%nat -> entries H2 i j = entries H2 j i)
    by (intros i j Hi Hj; rewrite !E2 by assumption; f_equal; apply SH; assumption).
  assert (S0 : forall i j, (i < 3)%nat -> (j < 3)%nat -> entries (line C H 0) i j = entries (line C H 0) j i)
    by (rewrite line_0 by assumption; exact SC).
  assert (D0 : forall i j, (i < 3)%nat -> (j < 3)%nat -> is_derive (fun t => entries (line C H t) i j) 0 (2 * entries H2 i j)).
  { intros i j Hi Hj. rewrite E2 by assumption. evar_last; [apply line_derive; assumption|]. field. }
  assert (X : double_dot (stress_of m C) H2 = / 2 * double_dot (stress_of m C) H).
  { unfold double_dot, sum3. rewrite !E2 by lia. ring. }
  rewrite <- X. unfold energy_of, stress_of.
  replace (PK2_stress m (sqrt (det C)) C) with (PK2_stress m (sqrt (det (line C H 0))) (line C H 0)) by (rewrite line_0 by assumption; reflexivity).
  destruct (kind_of m) eqn:K.
  - apply (energy_neo_derive (fun t => sqrt (det (line C H t))) (line C H) H2); auto using line_matrix3.
    + rewrite line_0 by assumption. apply sqrt_lt_R0, P.
    + rewrite line_0 by assumption. evar_last; [apply sqrt_det_derive; assumption|].
      apply f_equal. unfold sum3. rewrite !E2 by lia. ring.
  - apply (energy_svk_derive (fun t => sqrt (det (line C H t))) (line C H) H2); auto using line_matrix3.
Qed.
Print Assumptions C52_stress_is_energy_derivative.

(** The same along a deformation gradient: the derivative of the energy density W(F) = Psi(det F, F^T F) in the
    direction G is (F S) : G. *)
Lemma cauchy_green_matrix F : matrix3 (cauchy_green F).
Proof. apply of_entries_matrix3. Qed.
Lemma cauchy_green_symmetric F : symmetric (cauchy_green F).
Proof. intros i j Hi Hj. unfold cauchy_green. rewrite !entries_of_entries by assumption. unfold sum3. ring. Qed.
Lemma strain_rate_symmetric F G : symmetric (strain_rate F G).
Proof. intros i j Hi Hj. unfold strain_rate. rewrite !entries_of_entries by assumption. unfold sum3. ring. Qed.

Section DeformationPath.
Variables (F : R -> list (list R)) (G : list (list R)).
Hypothesis F_matrix : forall t, matrix3 (F t).
Hypothesis F_derive : matrix_derive F G.

Lemma cauchy_green_derive i j : (i < 3)%nat -> (j < 3)%nat ->
  is_derive (fun t => entries (cauchy_green (F t)) i j) 0 (2 * entries (strain_rate (F 0) G) i j).
Proof.
  intros Hi Hj. unfold strain_rate. rewrite entries_of_entries by assumption.
  apply (is_derive_ext (fun t => sum3 (fun k => entries (F t) k i * entries (F t) k j))).
  { intros t. symmetry. unfold cauchy_green. exact (entries_of_entries _ i j Hi Hj). }
  evar_last.
  - apply is_derive_sum3. intros k Hk.
    apply (is_derive_mult (fun t => entries (F t) k i) (fun t => entries (F t) k j));
      [apply F_derive; assumption|apply F_derive; assumption|intros; apply Rmult_comm].
  - unfold plus, mult; cbn. unfold sum3. field.
Qed.

Lemma det_cauchy_green M : matrix3 M -> det3 (entries (cauchy_green M)) = det M * det M.
Proof.
  intros H. rewrite (det_entries M H). unfold det3, cauchy_green. rewrite !entries_of_entries by lia. unfold sum3. ring.
Qed.

Lemma det_F_derive : 0 < det (F 0) ->
  let C := cauchy_green (F 0) in
  is_derive (fun t => det (F t)) 0
    (det (F 0) * sum3 (fun i => sum3 (fun j => adj (entries C) i j / det3 (entries C) * entries (strain_rate (F 0) G) i j))).
Proof.
  intros P C.
  pose proof (det_derive (fun i j t => entries (F t) i j) (fun i j => entries G i j) F_derive) as D.
  apply (is_derive_ext (fun t => det3 (entries (F t)))).
  { intros t. symmetry. apply det_entries, F_matrix. }
  evar_last; [exact D|]. cbv beta. change (fun i j => entries (F 0) i j) with (entries (F 0)).
  unfold C. rewrite det_cauchy_green by auto.
  assert (P3 : 0 < det3 (entries (F 0))) by (rewrite <- det_entries by auto; assumption).
  assert (X : det3 (entries (F 0)) * sum3 (fun i => sum3 (fun j => adj (entries (F 0)) j i * entries G i j)) =
    sum3 (fun i => sum3 (fun j => adj (entries (cauchy_green (F 0))) i j * entries (strain_rate (F 0) G) i j))).
  { unfold sum3, adj, cauchy_green, strain_rate. rewrite !entries_of_entries by lia. unfold sum3, det3. field. }
  rewrite (det_entries (F 0)) in * by auto.
  apply (Rmult_eq_reg_l (det3 (entries (F 0)))); [|lra]. rewrite X.
  unfold sum3. field. lra.
Qed.
End DeformationPath.

(** Deformations the law accepts: the logarithm of the neo-Hookean law needs J > 0. *)
Definition admissible (m : material) (J : R) : Prop := match kind_of m with NeoHookean => 0 < J | SaintVenantKirchhoff => True end.

Theorem C52_first_piola_kirchhoff :
  forall m F G, (forall t, matrix3 (F t)) -> matrix_derive F G -> admissible m (det (F 0)) ->
    is_derive (fun t => strain_energy_density m (det (F t)) (cauchy_green (F t))) 0
      (double_dot (product (F 0) (PK2_stress m (det (F 0)) (cauchy_green (F 0)))) G).
Proof.
  intros m F G M D A.
  assert (E : is_derive (fun t => strain_energy_density m (det (F t)) (cauchy_green (F t))) 0
      (double_dot (PK2_stress m (det (F 0)) (cauchy_green (F 0))) (strain_rate (F 0) G))).
  { unfold admissible in A. destruct (kind_of m) eqn:K.
    - apply (energy_neo_derive (fun t => det (F t)) (fun t => cauchy_green (F t)) (strain_rate (F 0) G)).
      + intros; apply of_entries_matrix3.
      + apply cauchy_green_derive; assumption.
      + exact A.
      + apply det_F_derive; assumption.
      + exact K.
    - apply (energy_svk_derive (fun t => det (F t)) (fun t => cauchy_green (F t)) (strain_rate (F 0) G)).
      + intros; apply of_entries_matrix3.
      + apply cauchy_green_symmetric.
      + apply strain_rate_symmetric.
      + apply cauchy_green_derive; assumption.
      + exact K. }
  evar_last; [exact E|].
  set (S := PK2_stress m (det (F 0)) (cauchy_green (F 0))).
  assert (SS : forall i j, (i < 3)%nat -> (j < 3)%nat -> entries S i j = entries S j i).
  { intros i j Hi Hj. unfold S. destruct (kind_of m) eqn:K.
    - rewrite !stress_neo_entry by auto using cauchy_green_matrix. cbn zeta.
      rewrite (adj_symmetric _ (cauchy_green_symmetric (F 0)) i j) by assumption. unfold delta. rewrite !(Nat.eqb_sym i j). reflexivity.
    - rewrite !stress_svk_entry by auto using cauchy_green_matrix. cbn zeta.
      cbv beta. rewrite (cauchy_green_symmetric (F 0) i j) by assumption. unfold delta. rewrite !(Nat.eqb_sym i j). reflexivity. }
  unfold double_dot, sum3, product, strain_rate. rewrite !entries_of_entries by lia.
  unfold sum3. rewrite (SS 1%nat 0%nat), (SS 2%nat 0%nat), (SS 2%nat 1%nat) by lia. field.
Qed.
Print Assumptions C52_first_piola_kirchhoff.

(** C53: in the direction H of the Green-Lagrange strain E = (C - I) / 2, that is along C + 2 t H, the stress has a
    symmetric derivative S', and S' in Voigt form is the 6x6 matrix times H in Voigt form. *)
Theorem C53_tangent_is_stress_derivative :
  forall m C H, matrix3 C -> symmetric C -> symmetric H -> 0 < det C ->
    exists S', matrix_derive (fun t => stress_of m (line C (mscale 2 H) t)) S' /\ symmetric S' /\
      voigt_stress (entries S') = mult (tangent_of m C) (voigt_strain (entries H)).
Proof.
  intros m C H MC SC SH P.
  assert (E2 : forall i j, (i < 3)%nat -> (j < 3)%nat -> entries (mscale 2 H) i j = 2 * entries H i j).
  { intros i j Hi Hj. unfold mscale, entries.
    assert (V : forall r, nth j (vscale 2 r) 0 = 2 * nth j r 0).
    { intros r. unfold vscale. rewrite <- (Rmult_0_r 2) at 1. apply (map_nth (Rmult 2)). }
    rewrite <- V. f_equal. change (@nil R) with (vscale 2 []) at 1. apply map_nth. }
  assert (S2 : symmetric (mscale 2 H)) by (intros i j Hi Hj; rewrite !E2 by assumption; f_equal; apply SH; assumption).
  set (K := line C (mscale 2 H)).
  assert (K0 : K 0 = C) by (apply line_0; assumption).
  exists (stress_rate (fun t => sqrt (det (K t))) K H m).
  assert (DK : forall i j, (i < 3)%nat -> (j < 3)%nat -> is_derive (fun t => entries (K t) i j) 0 (2 * entries H i j)).
  { intros i j Hi Hj. rewrite <- E2 by assumption. apply line_derive; assumption. }
  assert (SK : forall i j, (i < 3)%nat -> (j < 3)%nat -> entries (K 0) i j = entries (K 0) j i) by (rewrite K0; exact SC).
  assert (JK : is_derive (fun t => sqrt (det (K t))) 0
            (sqrt (det (K 0)) * sum3 (fun i => sum3 (fun j => adj (entries (K 0)) i j / det3 (entries (K 0)) * entries H i j)))).
  { rewrite K0. evar_last; [apply (sqrt_det_derive C (mscale 2 H)); assumption|]. apply f_equal. unfold sum3. rewrite !E2 by lia. field.
    rewrite <- det_entries by assumption. lra. }
  assert (P3 : det3 (entries (K 0)) <> 0) by (rewrite K0, <- det_entries by assumption; lra).
  split; [|split].
  - intros i j Hi Hj. unfold stress_of. fold K.
    apply (stress_derive (fun t => sqrt (det (K t))) K H); auto using line_matrix3.
    + intros; apply line_matrix3.
    + rewrite K0. apply sqrt_lt_R0, P.
  - intros i j Hi Hj. apply stress_rate_symmetric; auto.
  - unfold tangent_of. rewrite <- K0.
    symmetry. apply (stress_rate_tangent (fun t => sqrt (det (K t))) K H); auto. intros; apply line_matrix3.
Qed.
Print Assumptions C53_tangent_is_stress_derivative.

(** The same along a deformation gradient, with J = det F. *)
Theorem C53_deformation_gradient :
  forall m F G, (forall t, matrix3 (F t)) -> matrix_derive F G -> 0 < det (F 0) ->
    exists S', matrix_derive (fun t => PK2_stress m (det (F t)) (cauchy_green (F t))) S' /\ symmetric S' /\
      voigt_stress (entries S') =
      mult (PK2_stress_jacobian m (det (F 0)) (cauchy_green (F 0))) (voigt_strain (entries (strain_rate (F 0) G))).
Proof.
  intros m F G M D P.
  set (C := fun t => cauchy_green (F t)). set (H := strain_rate (F 0) G).
  exists (stress_rate (fun t => det (F t)) C H m).
  assert (MC : forall t, matrix3 (C t)) by (intros; apply of_entries_matrix3).
  assert (DC : forall i j, (i < 3)%nat -> (j < 3)%nat -> is_derive (fun t => entries (C t) i j) 0 (2 * entries H i j))
    by (apply cauchy_green_derive; assumption).
  assert (P3 : det3 (entries (C 0)) <> 0).
  { unfold C. rewrite det_cauchy_green by auto. apply Rgt_not_eq, Rmult_lt_0_compat; assumption. }
  pose proof (cauchy_green_symmetric (F 0)) as SC. pose proof (strain_rate_symmetric (F 0) G) as SH.
  split; [|split].
  - intros i j Hi Hj. apply (stress_derive (fun t => det (F t)) C H); auto. apply det_F_derive; assumption.
  - intros i j Hi Hj. apply stress_rate_symmetric; auto.
  - symmetry. apply (stress_rate_tangent (fun t => det (F t)) C H); auto.
Qed.
Print Assumptions C53_deformation_gradient.

(** The 6x6 matrix is symmetric. *)
Theorem C53_tangent_symmetric :
  forall m J C a b, (a < 6)%nat -> (b < 6)%nat ->
    nth b (nth a (PK2_stress_jacobian m J C) []) 0 = nth a (nth b (PK2_stress_jacobian m J C) []) 0.
Proof.
  intros m J C a b Ha Hb. unfold PK2_stress_jacobian. destruct (kind_of m).
  - cbn zeta. generalize (inverse C). intros Ci.
    unfold symmetric_dyad_1, symmetric_dyad_2, madd, mscale, vadd, vscale. cbn [map map2].
    destruct a as [|[|[|[|[|[|]]]]]]; try lia; destruct b as [|[|[|[|[|[|]]]]]]; try lia; cbn [nth]; ring.
  - unfold elasticity_matrix.
    destruct a as [|[|[|[|[|[|]]]]]]; try lia; destruct b as [|[|[|[|[|[|]]]]]]; try lia; reflexivity.
Qed.
Print Assumptions C53_tangent_symmetric.

(** ** C54 *)

(** The rest state has no energy and no stress. *)
Theorem C54_rest_state :
  forall m, strain_energy_density m 1 Id3 = 0 /\ PK2_stress m 1 Id3 = of_entries (fun _ _ => 0).
Proof.
  intros m. change Id3 with (of_entries delta). split.
  - destruct (kind_of m) eqn:K.
    + rewrite energy_neo by assumption. rewrite ln_1. unfold delta. cbn. field.
    + rewrite energy_svk by assumption. cbn zeta. unfold sum3, delta. cbn. field.
  - destruct (kind_of m) eqn:K.
    + rewrite stress_neo by assumption. apply of_entries_ext. intros i j Hi Hj. rewrite ln_1.
      replace (adj delta i j / det3 delta) with (delta i j); [ring|].
      unfold det3, delta. cbn [Nat.eqb].
      destruct i as [|[|[|]]], j as [|[|[|]]]; try lia; unfold adj; cbn [Nat.eqb]; field.
    + rewrite stress_svk by assumption. cbn zeta. apply of_entries_ext. intros i j Hi Hj. unfold delta. cbn [Nat.eqb]. 
      replace ((if Nat.eqb i j then 1 else 0) - (if Nat.eqb i j then 1 else 0)) with 0 by ring. field.
Qed.
Print Assumptions C54_rest_state.

Lemma det_product A B : matrix3 A -> matrix3 B -> det (product A B) = det A * det B.
Proof.
  intros MA MB. rewrite (det_entries A), (det_entries B), (det_entries (product A B)) by (try assumption; apply of_entries_matrix3).
  unfold product, det3. rewrite !entries_of_entries by lia. unfold sum3. ring.
Qed.

Lemma cauchy_green_rotated Q F : matrix3 Q -> cauchy_green Q = Id3 -> cauchy_green (product Q F) = cauchy_green F.
Proof.
  intros MQ H. unfold cauchy_green at 1 2. apply of_entries_ext. intros i j Hi Hj.
  assert (O : forall a b, (a < 3)%nat -> (b < 3)%nat -> sum3 (fun k => entries Q k a * entries Q k b) = delta a b).
  { intros a b Ha Hb. pose proof (f_equal (fun M => entries M a b) H) as E. unfold cauchy_green in E.
    cbv beta in E. rewrite entries_of_entries in E by assumption. rewrite E. change Id3 with (of_entries delta).
    apply entries_of_entries; assumption. }
  transitivity (sum3 (fun a => sum3 (fun b => sum3 (fun k => entries Q k a * entries Q k b) * (entries F a i * entries F b j)))).
  - unfold product. unfold sum3 at 1. rewrite !entries_of_entries by lia. unfold sum3. ring.
  - assert (X : forall f g, (forall a, (a < 3)%nat -> f a = g a) -> sum3 f = sum3 g).
    { intros f g E. unfold sum3. rewrite !E by lia. reflexivity. }
    transitivity (sum3 (fun a => sum3 (fun b => delta a b * (entries F a i * entries F b j)))).
    { apply X. intros a Ha. apply X. intros b Hb. rewrite O by assumption. reflexivity. }
    unfold delta, sum3. cbn [Nat.eqb]. ring.
Qed.

(** Energy and stress do not change when the deformed configuration is rotated. *)
Theorem C54_objectivity :
  forall m Q F, rotation Q -> matrix3 F ->
    strain_energy_density m (det (product Q F)) (cauchy_green (product Q F)) =
      strain_energy_density m (det F) (cauchy_green F) /\
    PK2_stress m (det (product Q F)) (cauchy_green (product Q F)) = PK2_stress m (det F) (cauchy_green F).
Proof.
  intros m Q F [MQ [OQ DQ]] MF. rewrite cauchy_green_rotated, det_product, DQ, Rmult_1_l by assumption. split; reflexivity.
Qed.
Print Assumptions C54_objectivity.

(** A rigid motion is stress free and stores no energy. *)
Theorem C54_rigid_motion :
  forall m Q, rotation Q ->
    strain_energy_density m (det Q) (cauchy_green Q) = 0 /\ PK2_stress m (det Q) (cauchy_green Q) = of_entries (fun _ _ => 0).
Proof. intros m Q [MQ [OQ DQ]]. rewrite OQ, DQ. apply C54_rest_state. Qed.
Print Assumptions C54_rigid_motion.

(** Small strains: with the parameters computed from Young's modulus E and Poisson's ratio nu the tangent at rest is
    Hooke's law: pulling along an axis by a unit strain, with lateral strains - nu, gives the stress E along this axis
    and nothing else; a shear angle g gives the shear stress g E / (2 (1 + nu)). *)
Theorem C54_hooke :
  forall k E nu, 1 + nu <> 0 -> 1 - 2 * nu <> 0 ->
    let D := PK2_stress_jacobian (before_update k E nu) 1 Id3 in
    mult D [1; - nu; - nu; 0; 0; 0] = [E; 0; 0; 0; 0; 0] /\
    mult D [- nu; 1; - nu; 0; 0; 0] = [0; E; 0; 0; 0; 0] /\
    mult D [- nu; - nu; 1; 0; 0; 0] = [0; 0; E; 0; 0; 0] /\
    forall a b c, mult D [0; 0; 0; a; b; c] =
      [0; 0; 0; a * (E / (2 * (1 + nu))); b * (E / (2 * (1 + nu))); c * (E / (2 * (1 + nu)))].
Proof.
  intros k E nu H1 H2.
  set (m := before_update k E nu).
  assert (X : PK2_stress_jacobian m 1 Id3 = elasticity_matrix m).
  { unfold PK2_stress_jacobian. destruct k; cbn [kind_of m before_update]; [|reflexivity].
    cbn zeta. rewrite ln_1. replace (inverse Id3) with Id3.
    - unfold symmetric_dyad_1, symmetric_dyad_2, elasticity_matrix, madd, mscale, vadd, vscale, e, Id3. cbn [map map2 nth].
      repeat (f_equal; try field).
    - unfold Id3, inverse, det. repeat (f_equal; try field). }
  cbn zeta. rewrite X. unfold elasticity_matrix, mult, m, before_update. cbn [mu lambda map combine fst snd fold_right].
  repeat split; intros; repeat (f_equal; try (field; auto)).
Qed.
Print Assumptions C54_hooke.

(** ** Witnesses *)
Definition some_strain : list (list R) := [ [2; 1; 0]; [1; 3; 1]; [0; 1; 2] ].
Example C52_witness : matrix3 some_strain /\ symmetric some_strain /\ 0 < det some_strain.
Proof.
  split; [|split].
  - split; [reflexivity|repeat constructor].
  - intros [|[|[|i]]] [|[|[|j]]] Hi Hj; try lia; reflexivity.
  - unfold some_strain, det. lra.
Qed.

Definition quarter_turn : list (list R) := [ [0; -1; 0]; [1; 0; 0]; [0; 0; 1] ].
Example C54_witness : rotation quarter_turn.
Proof.
  split; [split; [reflexivity|repeat constructor]|]. split.
  - unfold cauchy_green, Id3, of_entries, sum3, entries, quarter_turn. cbn [map seq nth]. repeat (f_equal; try ring).
  - unfold quarter_turn, det. ring.
Qed.
