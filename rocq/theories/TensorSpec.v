(** Voigt notation (C65, C52, C53): a symmetric second order tensor is given by its six entries 00, 11, 22, 01, 12, 02. *)

From Coq Require Import Reals List Arith.
Import ListNotations.
Open Scope R_scope.

Definition voigt : list (nat * nat) := [ (0, 0); (1, 1); (2, 2); (0, 1); (1, 2); (0, 2) ]%nat.

(** Second order tensors as functions of two indices, and 3x3 matrices. *)
Definition entries (a : list (list R)) : nat -> nat -> R := fun i j => nth j (nth i a []) 0.
Definition symmetric (a : list (list R)) : Prop := forall i j, (i < 3)%nat -> (j < 3)%nat -> entries a i j = entries a j i.
Definition sum3 (f : nat -> R) : R := f 0%nat + f 1%nat + f 2%nat.

(** Voigt form of a stress like tensor; of a strain like one, whose shear entries are doubled. *)
Definition voigt_stress (s : nat -> nat -> R) : list R := map (fun p => s (fst p) (snd p)) voigt.
Definition voigt_strain (s : nat -> nat -> R) : list R :=
  map (fun p => if Nat.eqb (fst p) (snd p) then s (fst p) (snd p) else 2 * s (fst p) (snd p)) voigt.

(** The 6x6 form of a fourth order tensor. *)
Definition voigt_matrix (T : nat -> nat -> nat -> nat -> R) : list (list R) :=
  map (fun p => map (fun q => T (fst p) (snd p) (fst q) (snd q)) voigt) voigt.

(** (T : s)_ij *)
Definition contract (T : nat -> nat -> nat -> nat -> R) (s : nat -> nat -> R) : nat -> nat -> R :=
  fun i j => sum3 (fun k => sum3 (fun l => T i j k l * s k l)).

(** Product of a 6x6 matrix and a vector. *)
Definition mult (M : list (list R)) (v : list R) : list R :=
  map (fun row => fold_right Rplus 0 (map (fun p => fst p * snd p) (combine row v))) M.
