(** Vocabulary for the hyperelastic materials (C52, C53, C54). *)

From Coq Require Import Reals List.
From Coquelicot Require Import Coquelicot.
From Coq Require Import List.
From Verif Require Import LinAlg TensorSpec MaterialModel.
Import ListNotations.
Open Scope R_scope.

(** 3x3 matrices. *)
Definition matrix3 (M : list (list R)) : Prop := length M = 3%nat /\ Forall (fun row => length row = 3%nat) M.

(** The matrix with the given entries. *)
Definition of_entries (f : nat -> nat -> R) : list (list R) := map (fun i => map (f i) (seq 0 3)) (seq 0 3).

(** A : B *)
Definition double_dot (A B : list (list R)) : R := sum3 (fun i => sum3 (fun j => entries A i j * entries B i j)).

(** M' is the derivative at 0 of the path t -> M t, entry by entry. *)
Definition matrix_derive (M : R -> list (list R)) (M' : list (list R)) : Prop :=
  forall i j, (i < 3)%nat -> (j < 3)%nat -> is_derive (fun t => entries (M t) i j) 0 (entries M' i j).

(** C + t H *)
Definition line (C H : list (list R)) (t : R) : list (list R) := of_entries (fun i j => entries C i j + t * entries H i j).

(** Energy and stress as functions of the strain C alone: J is the square root of det C. *)
Definition energy_of (m : material) (C : list (list R)) : R := strain_energy_density m (sqrt (det C)) C.
Definition stress_of (m : material) (C : list (list R)) : list (list R) := PK2_stress m (sqrt (det C)) C.
Definition tangent_of (m : material) (C : list (list R)) : list (list R) := PK2_stress_jacobian m (sqrt (det C)) C.

(** Right Cauchy-Green tensor of a deformation gradient. *)
Definition cauchy_green (F : list (list R)) : list (list R) :=
  of_entries (fun i j => sum3 (fun k => entries F k i * entries F k j)).
(** Symmetric part of F^T G. *)
Definition strain_rate (F G : list (list R)) : list (list R) :=
  of_entries (fun i j => / 2 * (sum3 (fun k => entries F k i * entries G k j) + sum3 (fun k => entries G k i * entries F k j))).
(** A B *)
Definition product (A B : list (list R)) : list (list R) :=
  of_entries (fun i j => sum3 (fun k => entries A i k * entries B k j)).

(** Rotations: Q^T Q = I and det Q = 1. *)
Definition rotation (Q : list (list R)) : Prop := matrix3 Q /\ cauchy_green Q = Id3 /\ det Q = 1.
