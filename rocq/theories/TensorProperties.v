(** C65: the symmetric dyads. *)

From Coq Require Import Reals List Arith Lia Lra.
From Verif Require Import TensorModel TensorSpec.
Import ListNotations.
Open Scope R_scope.

Ltac entry_symmetry S :=
  pose proof (S 1%nat 0%nat ltac:(lia) ltac:(lia)) as S10; pose proof (S 2%nat 1%nat ltac:(lia) ltac:(lia)) as S21;
  pose proof (S 2%nat 0%nat ltac:(lia) ltac:(lia)) as S20.

(** The 6x6 matrices are the Voigt forms of a_ij a_kl and of (a_ik a_jl + a_il a_jk) / 2. *)
Theorem C65_dyad_1_entries :
  forall a, symmetric a ->
    symmetric_dyad_1 a = voigt_matrix (fun i j k l => entries a i j * entries a k l).
Proof.
  intros a S. entry_symmetry S. unfold symmetric_dyad_1, voigt_matrix, voigt. cbn [map fst snd].
  unfold e, entries in *. repeat (f_equal; try ring).
Qed.
Print Assumptions C65_dyad_1_entries.

Theorem C65_dyad_2_entries :
  forall a, symmetric a ->
    symmetric_dyad_2 a =
    voigt_matrix (fun i j k l => / 2 * (entries a i k * entries a j l + entries a i l * entries a j k)).
Proof.
  intros a S. entry_symmetry S. unfold symmetric_dyad_2, voigt_matrix, voigt. cbn [map fst snd].
  change (fun i j : nat => nth j (nth i a []) 0) with (entries a) in *. unfold e. fold (entries a 0 0).
  repeat match goal with |- context [nth ?j (nth ?i a []) 0] => change (nth j (nth i a []) 0) with (entries a i j) end.
  rewrite ?S10, ?S20, ?S21. repeat (f_equal; try field).
Qed.
Print Assumptions C65_dyad_2_entries.

(** Action on a symmetric tensor s given in Voigt form: (a x a) : s = (a : s) a. *)
Theorem C65_dyad_1_action :
  forall a s, symmetric a -> symmetric s ->
    mult (symmetric_dyad_1 a) (voigt_strain (entries s)) =
    voigt_stress (fun i j => sum3 (fun k => sum3 (fun l => entries a k l * entries s k l)) * entries a i j).
Proof.
  intros a s S S'. rewrite C65_dyad_1_entries by assumption.
  entry_symmetry S. pose proof (S' 1%nat 0%nat ltac:(lia) ltac:(lia)) as T10.
  pose proof (S' 2%nat 1%nat ltac:(lia) ltac:(lia)) as T21. pose proof (S' 2%nat 0%nat ltac:(lia) ltac:(lia)) as T20.
  unfold mult, voigt_matrix, voigt_strain, voigt_stress, voigt, sum3. cbn [map fst snd combine fold_right Nat.eqb].
  rewrite ?S10, ?S20, ?S21, ?T10, ?T20, ?T21.
  repeat (f_equal; try ring).
Qed.
Print Assumptions C65_dyad_1_action.

(** The second dyad applied to s is the matrix product a s a. *)
Theorem C65_dyad_2_action :
  forall a s, symmetric a -> symmetric s ->
    mult (symmetric_dyad_2 a) (voigt_strain (entries s)) =
    voigt_stress (fun i j => sum3 (fun k => sum3 (fun l => entries a i k * entries s k l * entries a l j))).
Proof.
  intros a s S S'. rewrite C65_dyad_2_entries by assumption.
  entry_symmetry S. pose proof (S' 1%nat 0%nat ltac:(lia) ltac:(lia)) as T10.
  pose proof (S' 2%nat 1%nat ltac:(lia) ltac:(lia)) as T21. pose proof (S' 2%nat 0%nat ltac:(lia) ltac:(lia)) as T20.
  unfold mult, voigt_matrix, voigt_strain, voigt_stress, voigt, sum3. cbn [map fst snd combine fold_right Nat.eqb].
  rewrite ?S10, ?S20, ?S21, ?T10, ?T20, ?T21.
  repeat (f_equal; try field).
Qed.
Print Assumptions C65_dyad_2_action.

(** Contraction with the fourth order tensor and multiplication of its Voigt matrix are the same, when the tensor has
    the minor symmetry in its last indices. *)
Theorem C65_voigt_contraction :
  forall T s, symmetric s ->
    (forall i j k l, (i < 3)%nat -> (j < 3)%nat -> (k < 3)%nat -> (l < 3)%nat -> T i j k l = T i j l k) ->
    mult (voigt_matrix T) (voigt_strain (entries s)) = voigt_stress (contract T (entries s)).
Proof.
  intros T s S' M. pose proof (S' 1%nat 0%nat ltac:(lia) ltac:(lia)) as T10.
  pose proof (S' 2%nat 1%nat ltac:(lia) ltac:(lia)) as T21. pose proof (S' 2%nat 0%nat ltac:(lia) ltac:(lia)) as T20.
  unfold mult, voigt_matrix, voigt_strain, voigt_stress, contract, voigt, sum3.
  cbn [map fst snd combine fold_right Nat.eqb].
  rewrite ?T10, ?T20, ?T21.
  rewrite !(M _ _ 1%nat 0%nat) by lia. rewrite !(M _ _ 2%nat 0%nat) by lia. rewrite !(M _ _ 2%nat 1%nat) by lia.
  repeat (f_equal; try ring).
Qed.
Print Assumptions C65_voigt_contraction.

(** Witness: a symmetric tensor with six different entries. *)
Example C65_witness : symmetric [ [1; 2; 3]; [2; 4; 5]; [3; 5; 6] ].
Proof. intros [|[|[|i]]] [|[|[|j]]] Hi Hj; try lia; reflexivity. Qed.
