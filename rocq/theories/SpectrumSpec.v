(** Vocabulary for the stiffness read by a script (C90). *)

From Coq Require Import Reals List Arith.
From Verif Require Import ShapeModel BarycentricModel MappingSpec HyperModel HyperSpec SpectrumModel.
Import ListNotations.
Open Scope R_scope.

(** lambda is an eigenvalue of the n x n matrix A. *)
Definition eigenvalue (n : nat) (A : nat -> nat -> R) (lambda : R) : Prop :=
  exists v : nat -> R, (exists i, (i < n)%nat /\ v i <> 0) /\
    forall i, (i < n)%nat -> Rsum (map (fun j => A i j * v j) (seq 0 n)) = lambda * v i.
(** l lists the eigenvalues of A. *)
Definition all_eigenvalues (n : nat) (A : nat -> nat -> R) (l : list R) : Prop := forall lambda, In lambda l <-> eigenvalue n A lambda.

(** The condition number of a symmetric matrix whose eigenvalues are l: largest over smallest absolute value. *)
Definition condition_number (l : list R) (kappa : R) : Prop :=
  exists small large, In small l /\ In large l /\ (forall y, In y l -> Rabs small <= Rabs y <= Rabs large) /\
    small <> 0 /\ kappa = Rabs large / Rabs small.

(** The force field after a sequence of requests. *)
Definition served (spectrum : nat -> (nat -> nat -> R) -> list R) (d : domain) (s : forcefield) (rs : list request) : forcefield :=
  fold_left (fun s r => fst (serve spectrum d s r)) rs s.

(** The positions given have one row of three coordinates per node. *)
Definition sized (d : domain) (r : request) : Prop :=
  match r with
  | Simulation (SetPositions x) | AssembleStiffness x => field (length (positions d)) 3 x
  | _ => True
  end.

(** Questions of a script. *)
Definition question (r : request) : Prop := match r with GetK | Eigenvalues | Cond => True | _ => False end.
(** Requests after which the stiffness is out of date, or assembled elsewhere. *)
Definition quiet (r : request) : Prop := match r with Simulation (AddForce _) | AssembleStiffness _ => False | _ => True end.
(** Requests that do not need the stiffness. *)
Definition idle (r : request) : Prop :=
  match r with Simulation (AddDForce _ _ _) | Simulation (AddKToMatrix _ _) | AssembleStiffness _ => False | _ => True end.
