(** Derivatives of the energies and stresses of the hyperelastic materials along arbitrary paths. *)

From Coq Require Import ZArith Reals Lra Lia.
From Coquelicot Require Import Coquelicot.
From Coq Require Import List Arith Bool.
From Verif Require Import GridGeoModel ShapeModel LinAlg TensorModel TensorSpec TensorProperties MaterialModel MaterialSpec.
Import ListNotations.
Open Scope R_scope.

(** ** Entries of 3x3 matrices *)

Lemma matrix3_entries M : matrix3 M -> M = of_entries (entries M).
Proof.
  intros [L F]. destruct M as [|r0 [|r1 [|r2 [|]]]]; try discriminate.
  inversion F as [|? ? H0 F0]; subst. inversion F0 as [|? ? H1 F1]; subst. inversion F1 as [|? ? H2 F2]; subst.
  destruct r0 as [|? [|? [|? [|]]]]; try discriminate.
  destruct r1 as [|? [|? [|? [|]]]]; try discriminate.
  destruct r2 as [|? [|? [|? [|]]]]; try discriminate. reflexivity.
Qed.

Lemma of_entries_matrix3 f : matrix3 (of_entries f).
Proof. split; [reflexivity|]. repeat constructor. Qed.

Lemma entries_of_entries f i j : (i < 3)%nat -> (j < 3)%nat -> entries (of_entries f) i j = f i j.
Proof. intros Hi Hj. destruct i as [|[|[|]]], j as [|[|[|]]]; try lia; reflexivity. Qed.

Lemma of_entries_ext f g : (forall i j, (i < 3)%nat -> (j < 3)%nat -> f i j = g i j) -> of_entries f = of_entries g.
Proof. intros H. unfold of_entries. cbn [map seq]. rewrite !H by lia. reflexivity. Qed.

(** Cofactors: [adj f i j] is the entry (i, j) of the adjugate. *)
Definition det3 (f : nat -> nat -> R) : R :=
  f 0%nat 0%nat * (f 1%nat 1%nat * f 2%nat 2%nat - f 1%nat 2%nat * f 2%nat 1%nat)
  - f 0%nat 1%nat * (f 1%nat 0%nat * f 2%nat 2%nat - f 1%nat 2%nat * f 2%nat 0%nat)
  + f 0%nat 2%nat * (f 1%nat 0%nat * f 2%nat 1%nat - f 1%nat 1%nat * f 2%nat 0%nat).
Definition adj (f : nat -> nat -> R) (i j : nat) : R :=
  match i, j with
  | O, O => f 1%nat 1%nat * f 2%nat 2%nat - f 1%nat 2%nat * f 2%nat 1%nat
  | O, S O => f 0%nat 2%nat * f 2%nat 1%nat - f 0%nat 1%nat * f 2%nat 2%nat
  | O, _ => f 0%nat 1%nat * f 1%nat 2%nat - f 0%nat 2%nat * f 1%nat 1%nat
  | S O, O => f 1%nat 2%nat * f 2%nat 0%nat - f 1%nat 0%nat * f 2%nat 2%nat
  | S O, S O => f 0%nat 0%nat * f 2%nat 2%nat - f 0%nat 2%nat * f 2%nat 0%nat
  | S O, _ => f 0%nat 2%nat * f 1%nat 0%nat - f 0%nat 0%nat * f 1%nat 2%nat
  | _, O => f 1%nat 0%nat * f 2%nat 1%nat - f 1%nat 1%nat * f 2%nat 0%nat
  | _, S O => f 0%nat 1%nat * f 2%nat 0%nat - f 0%nat 0%nat * f 2%nat 1%nat
  | _, _ => f 0%nat 0%nat * f 1%nat 1%nat - f 0%nat 1%nat * f 1%nat 0%nat
  end.

Lemma det_of_entries f : det (of_entries f) = det3 f.
Proof. reflexivity. Qed.
Lemma inverse_of_entries f : inverse (of_entries f) = of_entries (fun i j => adj f i j / det3 f).
Proof. reflexivity. Qed.
Lemma det_entries M : matrix3 M -> det M = det3 (entries M).
Proof. intros H. rewrite (matrix3_entries M H) at 1. reflexivity. Qed.
Lemma inverse_entries M : matrix3 M -> inverse M = of_entries (fun i j => adj (entries M) i j / det3 (entries M)).
Proof. intros H. rewrite (matrix3_entries M H) at 1. reflexivity. Qed.

(** ** Derivatives of the determinant and of the inverse *)

Lemma is_derive_sum3 (f : nat -> R -> R) (f' : nat -> R) :
  (forall i, (i < 3)%nat -> is_derive (f i) 0 (f' i)) -> is_derive (fun t => sum3 (fun i => f i t)) 0 (sum3 f').
Proof.
  intros H. unfold sum3. apply (is_derive_plus (fun t => f 0%nat t + f 1%nat t)); [|apply H; lia].
  apply (is_derive_plus (f 0%nat) (f 1%nat)); apply H; lia.
Qed.

Section Paths.
Variables (c : nat -> nat -> R -> R) (c' : nat -> nat -> R).
Hypothesis Hc : forall i j, (i < 3)%nat -> (j < 3)%nat -> is_derive (c i j) 0 (c' i j).
Let C0 (i j : nat) : R := c i j 0.

Lemma ex_c i j : (i < 3)%nat -> (j < 3)%nat -> ex_derive (c i j) 0.
Proof. intros Hi Hj. exists (c' i j). apply Hc; assumption. Qed.
Lemma Derive_c i j : (i < 3)%nat -> (j < 3)%nat -> Derive (c i j) 0 = c' i j.
Proof. intros Hi Hj. apply is_derive_unique, Hc; assumption. Qed.
Lemma Derive_c' i j : (i < 3)%nat -> (j < 3)%nat -> Derive (fun t => c i j t) 0 = c' i j.
Proof. intros Hi Hj. apply is_derive_unique, Hc; assumption. Qed.

Ltac by_derive :=
  auto_derive;
  [repeat split; try assumption; try (apply ex_c; lia); auto
  |repeat match goal with |- context [Derive (fun x => c ?i ?j x) 0] =>
     rewrite (Derive_c' i j ltac:(lia) ltac:(lia)) end].

Lemma det_derive : is_derive (fun t => det3 (fun i j => c i j t)) 0 (sum3 (fun i => sum3 (fun j => adj C0 j i * c' i j))).
Proof.
  unfold det3. by_derive. unfold sum3, adj, C0. ring.
Qed.

Definition adj_derivative (i j : nat) : R :=
  match i, j with
  | O, O => c' 1%nat 1%nat * C0 2%nat 2%nat + C0 1%nat 1%nat * c' 2%nat 2%nat - (c' 1%nat 2%nat * C0 2%nat 1%nat + C0 1%nat 2%nat * c' 2%nat 1%nat)
  | O, S O => c' 0%nat 2%nat * C0 2%nat 1%nat + C0 0%nat 2%nat * c' 2%nat 1%nat - (c' 0%nat 1%nat * C0 2%nat 2%nat + C0 0%nat 1%nat * c' 2%nat 2%nat)
  | O, _ => c' 0%nat 1%nat * C0 1%nat 2%nat + C0 0%nat 1%nat * c' 1%nat 2%nat - (c' 0%nat 2%nat * C0 1%nat 1%nat + C0 0%nat 2%nat * c' 1%nat 1%nat)
  | S O, O => c' 1%nat 2%nat * C0 2%nat 0%nat + C0 1%nat 2%nat * c' 2%nat 0%nat - (c' 1%nat 0%nat * C0 2%nat 2%nat + C0 1%nat 0%nat * c' 2%nat 2%nat)
  | S O, S O => c' 0%nat 0%nat * C0 2%nat 2%nat + C0 0%nat 0%nat * c' 2%nat 2%nat - (c' 0%nat 2%nat * C0 2%nat 0%nat + C0 0%nat 2%nat * c' 2%nat 0%nat)
  | S O, _ => c' 0%nat 2%nat * C0 1%nat 0%nat + C0 0%nat 2%nat * c' 1%nat 0%nat - (c' 0%nat 0%nat * C0 1%nat 2%nat + C0 0%nat 0%nat * c' 1%nat 2%nat)
  | _, O => c' 1%nat 0%nat * C0 2%nat 1%nat + C0 1%nat 0%nat * c' 2%nat 1%nat - (c' 1%nat 1%nat * C0 2%nat 0%nat + C0 1%nat 1%nat * c' 2%nat 0%nat)
  | _, S O => c' 0%nat 1%nat * C0 2%nat 0%nat + C0 0%nat 1%nat * c' 2%nat 0%nat - (c' 0%nat 0%nat * C0 2%nat 1%nat + C0 0%nat 0%nat * c' 2%nat 1%nat)
  | _, _ => c' 0%nat 0%nat * C0 1%nat 1%nat + C0 0%nat 0%nat * c' 1%nat 1%nat - (c' 0%nat 1%nat * C0 1%nat 0%nat + C0 0%nat 1%nat * c' 1%nat 0%nat)
  end.

Lemma adj_derive i j : (i < 3)%nat -> (j < 3)%nat ->
  is_derive (fun t => adj (fun i j => c i j t) i j) 0 (adj_derivative i j).
Proof.
  intros Hi Hj. destruct i as [|[|[|]]], j as [|[|[|]]]; try lia; unfold adj, adj_derivative; by_derive; unfold C0; ring.
Qed.

(** adj' det - adj det' = - adj C' adj *)
Lemma adj_identity i j : (i < 3)%nat -> (j < 3)%nat ->
  adj_derivative i j * det3 C0 - adj C0 i j * sum3 (fun i => sum3 (fun j => adj C0 j i * c' i j)) =
  - sum3 (fun k => sum3 (fun n => adj C0 i k * c' k n * adj C0 n j)).
Proof.
  intros Hi Hj. destruct i as [|[|[|]]], j as [|[|[|]]]; try lia; unfold adj_derivative, sum3, det3, adj; ring.
Qed.

Lemma inverse_derive i j : (i < 3)%nat -> (j < 3)%nat -> det3 C0 <> 0 ->
  let Ci i j := adj C0 i j / det3 C0 in
  is_derive (fun t => adj (fun i j => c i j t) i j / det3 (fun i j => c i j t)) 0
    (- sum3 (fun k => sum3 (fun n => Ci i k * c' k n * Ci n j))).
Proof.
  intros Hi Hj HD Ci. pose proof (adj_derive i j Hi Hj) as DA. pose proof det_derive as DD.
  evar_last.
  - apply (is_derive_div (fun t => adj (fun i j => c i j t) i j) (fun t => det3 (fun i j => c i j t)));
      [exact DA|exact DD|exact HD].
  - fold C0. change (fun i0 j0 => c i0 j0 0) with C0. rewrite adj_identity by assumption.
    unfold Ci, sum3. field. exact HD.
Qed.

Lemma svk_energy_path la m :
  let E t i j := / 2 * (c i j t - if Nat.eqb i j then 1 else 0) in
  let E0 i j := E 0 i j in
  is_derive (fun t => la / 2 * ((E t 0%nat 0%nat + E t 1%nat 1%nat + E t 2%nat 2%nat) *
                                (E t 0%nat 0%nat + E t 1%nat 1%nat + E t 2%nat 2%nat)) +
                      m * sum3 (fun i => sum3 (fun j => E t i j * E t j i))) 0
    (la / 2 * (E0 0%nat 0%nat + E0 1%nat 1%nat + E0 2%nat 2%nat) * (c' 0%nat 0%nat + c' 1%nat 1%nat + c' 2%nat 2%nat) +
     m * sum3 (fun i => sum3 (fun j => E0 j i * c' i j))).
Proof.
  cbn zeta.
  assert (DE : forall i j, (i < 3)%nat -> (j < 3)%nat ->
    is_derive (fun t => / 2 * (c i j t - if Nat.eqb i j then 1 else 0)) 0 (/ 2 * c' i j)).
  { intros i j Hi Hj. set (d := if Nat.eqb i j then 1 else 0). by_derive. ring. }
  set (E := fun i j t => / 2 * (c i j t - if Nat.eqb i j then 1 else 0)) in *.
  assert (DE' : forall i j, (i < 3)%nat -> (j < 3)%nat -> is_derive (E i j) 0 (/ 2 * c' i j)) by exact DE.
  assert (DT : is_derive (fun t => E 0%nat 0%nat t + E 1%nat 1%nat t + E 2%nat 2%nat t) 0
                 (/ 2 * (c' 0%nat 0%nat + c' 1%nat 1%nat + c' 2%nat 2%nat))).
  { evar_last; [apply (is_derive_plus (fun t => E 0%nat 0%nat t + E 1%nat 1%nat t));
      [apply (is_derive_plus (E 0%nat 0%nat) (E 1%nat 1%nat)); apply DE'; lia|apply DE'; lia]|]. unfold plus; cbn. ring. }
  assert (DQ : is_derive (fun t => sum3 (fun i => sum3 (fun j => E i j t * E j i t))) 0
                 (sum3 (fun i => sum3 (fun j => / 2 * c' i j * E j i 0 + E i j 0 * (/ 2 * c' j i))))).
  { apply is_derive_sum3. intros i Hi. apply is_derive_sum3. intros j Hj.
    apply (is_derive_mult (E i j) (E j i)); [apply DE'; lia..|]. intros; apply Rmult_comm. }
  set (T := fun t => E 0%nat 0%nat t + E 1%nat 1%nat t + E 2%nat 2%nat t) in *.
  set (Q := fun t => sum3 (fun i => sum3 (fun j => E i j t * E j i t))) in *.
  assert (DT' : is_derive T 0 (/ 2 * (c' 0%nat 0%nat + c' 1%nat 1%nat + c' 2%nat 2%nat))) by exact DT.
  assert (DQ' : is_derive Q 0 (sum3 (fun i => sum3 (fun j => / 2 * c' i j * E j i 0 + E i j 0 * (/ 2 * c' j i))))) by exact DQ.
  evar_last.
  - apply (is_derive_ext (fun t => la / 2 * (T t * T t) + m * Q t)); [reflexivity|].
    assert (ex_derive T 0) by (eexists; exact DT). assert (ex_derive Q 0) by (eexists; exact DQ).
    auto_derive; [auto|reflexivity].
  - change (Derive (fun x => T x) 0) with (Derive T 0). change (Derive (fun x => Q x) 0) with (Derive Q 0).
    rewrite (is_derive_unique _ _ _ DT'), (is_derive_unique _ _ _ DQ').
    unfold T, sum3, E. cbn [Nat.eqb]. field.
Qed.

Lemma neo_energy_path la m L L' : is_derive L 0 L' ->
  is_derive (fun t => m / 2 * (c 0%nat 0%nat t + c 1%nat 1%nat t + c 2%nat 2%nat t - 3) - m * L t + la / 2 * L t * L t) 0
    (m / 2 * (c' 0%nat 0%nat + c' 1%nat 1%nat + c' 2%nat 2%nat) - m * L' + la * L 0 * L').
Proof.
  intros DL. assert (ex_derive L 0) by (eexists; exact DL). by_derive.
  change (Derive (fun x => L x) 0) with (Derive L 0). rewrite (is_derive_unique _ _ _ DL). field.
Qed.

Lemma svk_stress_path la m i j : (i < 3)%nat -> (j < 3)%nat ->
  let E t i j := / 2 * (c i j t - if Nat.eqb i j then 1 else 0) in
  is_derive (fun t => la * (E t 0%nat 0%nat + E t 1%nat 1%nat + E t 2%nat 2%nat) * (if Nat.eqb i j then 1 else 0) +
                      2 * m * E t i j) 0
    (la * (/ 2 * c' 0%nat 0%nat + / 2 * c' 1%nat 1%nat + / 2 * c' 2%nat 2%nat) * (if Nat.eqb i j then 1 else 0) + m * c' i j).
Proof.
  intros Hi Hj. cbn zeta. set (d := if Nat.eqb i j then 1 else 0). cbn [Nat.eqb].
  pose proof (Hc 0%nat 0%nat ltac:(lia) ltac:(lia)) as D0. pose proof (Hc 1%nat 1%nat ltac:(lia) ltac:(lia)) as D1.
  pose proof (Hc 2%nat 2%nat ltac:(lia) ltac:(lia)) as D2. pose proof (Hc i j Hi Hj) as D3.
  generalize dependent (c' 0%nat 0%nat). generalize dependent (c' 1%nat 1%nat). generalize dependent (c' 2%nat 2%nat).
  generalize dependent (c' i j). generalize (c 0%nat 0%nat) (c 1%nat 1%nat) (c 2%nat 2%nat) (c i j).
  clear. intros f0 f1 f2 f3 d3 D3 d2 D2 d1 D1 d0 D0.
  auto_derive; [repeat split; eexists; eassumption|].
  change (Derive (fun x => f0 x) 0) with (Derive f0 0). change (Derive (fun x => f1 x) 0) with (Derive f1 0).
  change (Derive (fun x => f2 x) 0) with (Derive f2 0). change (Derive (fun x => f3 x) 0) with (Derive f3 0).
  rewrite (is_derive_unique _ _ _ D0), (is_derive_unique _ _ _ D1), (is_derive_unique _ _ _ D2), (is_derive_unique _ _ _ D3).
  field.
Qed.
End Paths.

(** ** Materials along a path *)

(** Symmetry of the inverse. *)
Lemma adj_symmetric f : (forall i j, (i < 3)%nat -> (j < 3)%nat -> f i j = f j i) ->
  forall i j, (i < 3)%nat -> (j < 3)%nat -> adj f i j = adj f j i.
Proof.
  intros S i j Hi Hj. destruct i as [|[|[|]]], j as [|[|[|]]]; try lia; unfold adj;
    rewrite ?(S 1%nat 0%nat), ?(S 2%nat 0%nat), ?(S 2%nat 1%nat) by lia; ring.
Qed.

(** The functions of the materials in terms of the entries. *)
Definition delta (i j : nat) : R := if Nat.eqb i j then 1 else 0.

Ltac expand := cbn [map map2 nth app seq fold_right of_entries vscale vadd vminus madd msub mscale matmul column vdot
    trace e Id3 entries Rsum sum3 delta Nat.eqb].

Lemma energy_neo m J f : kind_of m = NeoHookean ->
  strain_energy_density m J (of_entries f) =
  mu m / 2 * (f 0%nat 0%nat + f 1%nat 1%nat + f 2%nat 2%nat - 3) - mu m * ln J + lambda m / 2 * ln J * ln J.
Proof. intros K. unfold strain_energy_density. rewrite K. reflexivity. Qed.

Lemma energy_svk m J f : kind_of m = SaintVenantKirchhoff ->
  strain_energy_density m J (of_entries f) =
  let E i j := / 2 * (f i j - delta i j) in
  lambda m / 2 * ((E 0%nat 0%nat + E 1%nat 1%nat + E 2%nat 2%nat) * (E 0%nat 0%nat + E 1%nat 1%nat + E 2%nat 2%nat)) +
  mu m * sum3 (fun i => sum3 (fun j => E i j * E j i)).
Proof.
  intros K. unfold strain_energy_density. rewrite K. cbn zeta. unfold trace, e, of_entries. expand. 
  unfold vdot, column, vscale, vminus, Rsum. expand. unfold sum3, delta. cbn [Nat.eqb]. field.
Qed.

Lemma stress_neo m J f : kind_of m = NeoHookean ->
  PK2_stress m J (of_entries f) =
  of_entries (fun i j => mu m * (delta i j - adj f i j / det3 f) + lambda m * ln J * (adj f i j / det3 f)).
Proof. intros K. unfold PK2_stress. rewrite K. rewrite inverse_of_entries. reflexivity. Qed.

Lemma stress_svk m J f : kind_of m = SaintVenantKirchhoff ->
  PK2_stress m J (of_entries f) =
  let E i j := / 2 * (f i j - delta i j) in
  of_entries (fun i j => lambda m * (E 0%nat 0%nat + E 1%nat 1%nat + E 2%nat 2%nat) * delta i j + 2 * mu m * E i j).
Proof.
  intros K. unfold PK2_stress. rewrite K. cbn zeta. replace (1 / 2) with (/ 2) by field. reflexivity.
Qed.

Lemma energy_neo_entries m J M : matrix3 M -> kind_of m = NeoHookean ->
  strain_energy_density m J M =
  let f := entries M in
  mu m / 2 * (f 0%nat 0%nat + f 1%nat 1%nat + f 2%nat 2%nat - 3) - mu m * ln J + lambda m / 2 * ln J * ln J.
Proof. intros H K. rewrite (matrix3_entries M H) at 1. apply (energy_neo m J (entries M) K). Qed.

Lemma energy_svk_entries m J M : matrix3 M -> kind_of m = SaintVenantKirchhoff ->
  strain_energy_density m J M =
  let f := entries M in
  let E i j := / 2 * (f i j - delta i j) in
  lambda m / 2 * ((E 0%nat 0%nat + E 1%nat 1%nat + E 2%nat 2%nat) * (E 0%nat 0%nat + E 1%nat 1%nat + E 2%nat 2%nat)) +
  mu m * sum3 (fun i => sum3 (fun j => E i j * E j i)).
Proof. intros H K. rewrite (matrix3_entries M H) at 1. apply (energy_svk m J (entries M) K). Qed.

Lemma stress_neo_entries m J M : matrix3 M -> kind_of m = NeoHookean ->
  PK2_stress m J M =
  let f := entries M in
  of_entries (fun i j => mu m * (delta i j - adj f i j / det3 f) + lambda m * ln J * (adj f i j / det3 f)).
Proof. intros H K. rewrite (matrix3_entries M H) at 1. apply (stress_neo m J (entries M) K). Qed.

Lemma stress_svk_entries m J M : matrix3 M -> kind_of m = SaintVenantKirchhoff ->
  PK2_stress m J M =
  let f := entries M in
  let E i j := / 2 * (f i j - delta i j) in
  of_entries (fun i j => lambda m * (E 0%nat 0%nat + E 1%nat 1%nat + E 2%nat 2%nat) * delta i j + 2 * mu m * E i j).
Proof. intros H K. rewrite (matrix3_entries M H) at 1. apply (stress_svk m J (entries M) K). Qed.

Lemma stress_neo_entry m J M i j : matrix3 M -> kind_of m = NeoHookean -> (i < 3)%nat -> (j < 3)%nat ->
  entries (PK2_stress m J M) i j =
  let f := entries M in mu m * (delta i j - adj f i j / det3 f) + lambda m * ln J * (adj f i j / det3 f).
Proof. intros H K Hi Hj. rewrite stress_neo_entries by assumption. cbn zeta. rewrite entries_of_entries by assumption. reflexivity. Qed.

Lemma stress_svk_entry m J M i j : matrix3 M -> kind_of m = SaintVenantKirchhoff -> (i < 3)%nat -> (j < 3)%nat ->
  entries (PK2_stress m J M) i j =
  let f := entries M in
  let E i j := / 2 * (f i j - delta i j) in
  lambda m * (E 0%nat 0%nat + E 1%nat 1%nat + E 2%nat 2%nat) * delta i j + 2 * mu m * E i j.
Proof. intros H K Hi Hj. rewrite stress_svk_entries by assumption. cbn zeta. rewrite entries_of_entries by assumption. reflexivity. Qed.

Section Material.
Variables (J : R -> R) (C : R -> list (list R)) (H : list (list R)).
Hypothesis C_matrix : forall t, matrix3 (C t).
Hypothesis C_symmetric : forall i j, (i < 3)%nat -> (j < 3)%nat -> entries (C 0) i j = entries (C 0) j i.
Hypothesis H_symmetric : forall i j, (i < 3)%nat -> (j < 3)%nat -> entries H i j = entries H j i.
(** C' = 2 H *)
Hypothesis C_derive : forall i j, (i < 3)%nat -> (j < 3)%nat -> is_derive (fun t => entries (C t) i j) 0 (2 * entries H i j).

Let Ci i j := adj (entries (C 0)) i j / det3 (entries (C 0)).
Let r := sum3 (fun i => sum3 (fun j => Ci i j * entries H i j)).

Definition stress_rate (m : material) : list (list R) :=
  match kind_of m with
  | NeoHookean => of_entries (fun i j =>
      lambda m * r * Ci i j + 2 * (mu m - lambda m * ln (J 0)) * sum3 (fun k => sum3 (fun n => Ci i k * entries H k n * Ci n j)))
  | SaintVenantKirchhoff => of_entries (fun i j =>
      lambda m * (entries H 0 0 + entries H 1 1 + entries H 2 2) * delta i j + 2 * mu m * entries H i j)
  end.

Ltac use_symmetry :=
  rewrite ?(C_symmetric 1 0), ?(C_symmetric 2 0), ?(C_symmetric 2 1) by lia;
  rewrite ?(H_symmetric 1 0), ?(H_symmetric 2 0), ?(H_symmetric 2 1) by lia.

Lemma energy_svk_derive m : kind_of m = SaintVenantKirchhoff ->
  is_derive (fun t => strain_energy_density m (J t) (C t)) 0 (double_dot (PK2_stress m (J 0) (C 0)) H).
Proof.
  intros K. eapply is_derive_ext.
  { intros t. symmetry. apply energy_svk_entries; auto. }
  rewrite stress_svk_entries by auto.
  cbn zeta. evar_last.
  - exact (svk_energy_path (fun i j t => entries (C t) i j) _ C_derive (lambda m) (mu m)).
  - unfold double_dot, sum3. rewrite !entries_of_entries by lia. unfold delta. cbn [Nat.eqb].
    use_symmetry. field.
Qed.

Hypothesis J_positive : 0 < J 0.
Hypothesis J_derive : is_derive J 0 (J 0 * r).
Hypothesis C_det : det3 (entries (C 0)) <> 0.

Lemma ln_derive : is_derive (fun t => ln (J t)) 0 r.
Proof.
  evar_last; [apply (is_derive_comp ln J)|]; [apply is_derive_Reals, derivable_pt_lim_ln; exact J_positive|exact J_derive|].
  cbn. unfold mult; cbn. field. lra.
Qed.

Lemma energy_neo_derive m : kind_of m = NeoHookean ->
  is_derive (fun t => strain_energy_density m (J t) (C t)) 0 (double_dot (PK2_stress m (J 0) (C 0)) H).
Proof.
  intros K. eapply is_derive_ext.
  { intros t. symmetry. apply energy_neo_entries; auto. }
  rewrite stress_neo_entries by auto.
  cbn zeta. evar_last.
  - exact (neo_energy_path (fun i j t => entries (C t) i j) _ C_derive (lambda m) (mu m) _ _ ln_derive).
  - unfold double_dot, r, sum3. rewrite !entries_of_entries by lia. unfold delta. cbn [Nat.eqb].
    fold (Ci 0%nat 0%nat) (Ci 0%nat 1%nat) (Ci 0%nat 2%nat) (Ci 1%nat 0%nat) (Ci 1%nat 1%nat) (Ci 1%nat 2%nat)
       (Ci 2%nat 0%nat) (Ci 2%nat 1%nat) (Ci 2%nat 2%nat). field.
Qed.

Lemma stress_rate_symmetric m i j : (i < 3)%nat -> (j < 3)%nat -> entries (stress_rate m) i j = entries (stress_rate m) j i.
Proof.
  assert (S : forall i j, (i < 3)%nat -> (j < 3)%nat -> Ci i j = Ci j i).
  { intros a b Ha Hb. unfold Ci. rewrite (adj_symmetric _ C_symmetric a b) by assumption. reflexivity. }
  intros Hi Hj. unfold stress_rate. destruct (kind_of m); rewrite !entries_of_entries by assumption.
  - rewrite (S i j) by assumption. f_equal. f_equal. unfold sum3.
    rewrite !(S _ i) by lia. rewrite !(S j _) by lia. use_symmetry. ring.
  - rewrite (H_symmetric i j) by assumption. unfold delta. rewrite Nat.eqb_sym. reflexivity.
Qed.

Lemma stress_derive m i j : (i < 3)%nat -> (j < 3)%nat ->
  is_derive (fun t => entries (PK2_stress m (J t) (C t)) i j) 0 (entries (stress_rate m) i j).
Proof.
  intros Hi Hj. unfold stress_rate. destruct (kind_of m) eqn:K; rewrite !entries_of_entries by assumption.
  - eapply is_derive_ext.
    { intros t. symmetry. apply stress_neo_entry; auto. }
    pose proof ln_derive as DL.
    pose proof (inverse_derive (fun i j t => entries (C t) i j) (fun i j => 2 * entries H i j) C_derive i j Hi Hj C_det) as DI.
    cbn zeta in DI. cbv beta in DI.
    set (L := fun t => ln (J t)) in *.
    set (I := fun t => adj (entries (C t)) i j / det3 (entries (C t))).
    assert (DI' : is_derive I 0 (- sum3 (fun k => sum3 (fun n => Ci i k * (2 * entries H k n) * Ci n j)))) by exact DI.
    apply (is_derive_ext (fun t => mu m * (delta i j - I t) + lambda m * L t * I t)); [reflexivity|].
    auto_derive; [repeat split; [eexists; exact DI'|eexists; exact DL|eexists; exact DI']|].
    change (Derive (fun x => L x) 0) with (Derive L 0). change (Derive (fun x => I x) 0) with (Derive I 0).
    assert (DL' : is_derive L 0 r) by exact DL.
    rewrite (is_derive_unique _ _ _ DL'), (is_derive_unique _ _ _ DI').
    change (I 0) with (Ci i j). unfold L, sum3. ring.
  - eapply is_derive_ext.
    { intros t. symmetry. apply stress_svk_entry; auto. }
    evar_last.
    + exact (svk_stress_path (fun i j t => entries (C t) i j) _ C_derive (lambda m) (mu m) i j Hi Hj).
    + unfold delta. field.
Qed.

(** In Voigt form, the rate of the stress is the tangent times the strain rate. *)
Lemma stress_rate_tangent m :
  mult (PK2_stress_jacobian m (J 0) (C 0)) (voigt_strain (entries H)) = voigt_stress (entries (stress_rate m)).
Proof.
  assert (Si : symmetric (of_entries Ci)).
  { intros a b Ha Hb. rewrite !entries_of_entries by assumption.
    unfold Ci. rewrite (adj_symmetric _ C_symmetric a b) by assumption. reflexivity. }
  unfold PK2_stress_jacobian, stress_rate. destruct (kind_of m).
  - cbn zeta. rewrite (matrix3_entries (C 0) (C_matrix 0)), inverse_of_entries.
    change (fun i j : nat => adj (entries (C 0)) i j / det3 (entries (C 0))) with Ci.
    assert (M : forall A B s t v, length A = 6%nat -> length B = 6%nat -> Forall (fun x => length x = 6%nat) A ->
      Forall (fun x => length x = 6%nat) B -> length v = 6%nat ->
      mult (madd (mscale s A) (mscale t B)) v = vadd (vscale s (mult A v)) (vscale t (mult B v))).
    { clear. intros A B s t v LA LB FA FB Lv.
      do 6 (destruct A as [|? A]; [discriminate|]). destruct A; [|discriminate].
      do 6 (destruct B as [|? B]; [discriminate|]). destruct B; [|discriminate].
      do 6 (destruct v as [|? v]; [discriminate|]). destruct v; [|discriminate].
      cbn [madd mscale mult map map2 vadd vscale].
      repeat match goal with F : Forall _ (_ :: _) |- _ => apply Forall_cons_iff in F; destruct F end.
      repeat match goal with x : list R, L : length ?x = 6%nat |- _ =>
        do 6 (destruct x as [|? x]; [discriminate|]); destruct x; [clear L|discriminate] end.
      unfold vadd, vscale. cbn [map map2 combine fst snd fold_right]. repeat (f_equal; try ring). }
    rewrite M; [| reflexivity | reflexivity | repeat constructor | repeat constructor | reflexivity].
    rewrite C65_dyad_1_action, C65_dyad_2_action by assumption.
    unfold voigt_stress, voigt, vadd, vscale. cbn [map map2 fst snd].
    rewrite !entries_of_entries by lia. unfold r, sum3. rewrite !entries_of_entries by lia.
    repeat (f_equal; try ring).
  - unfold elasticity_matrix, mult, voigt_strain, voigt_stress, voigt. cbn [map fst snd combine fold_right Nat.eqb].
    rewrite !entries_of_entries by lia. unfold delta. cbn [Nat.eqb]. repeat (f_equal; try ring).
Qed.
End Material.
