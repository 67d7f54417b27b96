(** The stiffness of the hyperelastic force field as a script reads it: K, eigenvalues, cond and assemble_stiffness(x).

    Model of
    - /repo/src/SofaCaribou/Forcefield/HyperelasticForcefield.h:106-219 (K, eigenvalues, cond, assemble_stiffness, the flags),
    - /repo/src/SofaCaribou/Forcefield/HyperelasticForcefield.inl:36-61 (init), 73-250 (the calls of the simulation),
      390-540 (assemble_stiffness), 571-600 (eigenvalues, cond),
    - /repo/src/SofaCaribou/Python/Forcefield/HyperelasticForcefield.h:16-36 (what a script can call).

    The eigenvalue solver of Eigen (SelfAdjointEigenSolver) is a parameter [spectrum]: it is given the number of rows and the
    entries of the matrix, and returns the eigenvalues.  Simplifications: real arithmetic; the force field has a material;
    the eigenvalue solver does not fail (lines 580-582 only print a message). *)

From Coq Require Import Reals List Arith Bool.
From Verif Require Import GridGeoModel ShapeModel LinAlg BarycentricModel TensorModel MaterialModel HyperModel SparseModel.
Import ListNotations.
Open Scope R_scope.

(** HyperelasticForcefield.h:206-219.  [base] is the part modelled in HyperModel; k_rows is the number of rows of p_K. *)
Record forcefield := { base : component; k_rows : nat; p_eigenvalues : list R; eigenvalues_are_up_to_date : bool }.

Definition with_base (s : forcefield) (c : component) : forcefield :=
  {| base := c; k_rows := k_rows s; p_eigenvalues := p_eigenvalues s; eigenvalues_are_up_to_date := eigenvalues_are_up_to_date s |}.

(** HyperelasticForcefield.inl:409-540: the flags of lines 538-539, p_K resized by line 424 from the rows of x. *)
Definition assemble_stiffness_at (d : domain) (s : forcefield) (x : list (list R)) : forcefield :=
  let c := update_material (base s) in
  {| base := set_K c (HyperModel.assemble_stiffness (parameters c) d x) true;
     k_rows := (length x * 3)%nat; p_eigenvalues := p_eigenvalues s; eigenvalues_are_up_to_date := false |}.
(** Lines 390-405 *)
Definition assemble_stiffness_now (d : domain) (s : forcefield) : forcefield := assemble_stiffness_at d s (current_x (base s)).

(** HyperelasticForcefield.h:115-148: the entries of the matrix returned by K(). *)
Definition K_entries (s : forcefield) : nat -> nat -> R := coeff (HyperModel.K (p_K (base s)) (k_rows s)).

(** minCoeff and maxCoeff of a non-empty vector. *)
Definition minCoeff (x : R) (l : list R) : R := fold_left Rmin l x.
Definition maxCoeff (x : R) (l : list R) : R := fold_left Rmax l x.

(** Calls of the simulation (those of HyperModel) and of a script. *)
Inductive request :=
  | Simulation (a : call)
  | GetK
  | AssembleStiffness (x : list (list R))
  | Eigenvalues
  | Cond.
(** A division by zero and the reductions of an empty vector are [Undefined]. *)
Inductive reply :=
  | Told (a : answer)
  | Matrix_is (rows : nat) (entry : nat -> nat -> R)
  | Values (l : list R)
  | Number (r : R)
  | Undefined
  | Done.

Section Requests.
Variable spectrum : nat -> (nat -> nat -> R) -> list R.
Variable d : domain.

(** HyperelasticForcefield.inl:571-589 *)
Definition eigenvalues (s : forcefield) : forcefield :=
  if negb (eigenvalues_are_up_to_date s) then
    {| base := base s; k_rows := k_rows s; p_eigenvalues := spectrum (k_rows s) (K_entries s); eigenvalues_are_up_to_date := true |}
  else s.
(** Lines 591-600 *)
Definition cond (values : list R) : reply :=
  match values with
  | [] => Undefined
  | v :: l => if Req_EM_T (maxCoeff v l) 0 then Undefined else Number (minCoeff v l / maxCoeff v l)
  end.

(** Lines 184-187 and 219-222 *)
Definition if_needed (s : forcefield) : forcefield := if K_is_up_to_date (base s) then s else assemble_stiffness_now d s.

Definition serve (s : forcefield) (r : request) : forcefield * reply :=
  match r with
  | Simulation (AddForce f) =>
      (* lines 73-175: the flags are reset at the end (lines 173-174), unless the call returned before *)
      let (c, a) := step d (base s) (AddForce f) in
      let early := (negb (Nat.eqb (length (current_x c)) (length f)) || Nat.eqb (length (current_x c)) 0 ||
                    Nat.eqb (length (connectivity d)) 0)%bool in
      ({| base := c; k_rows := k_rows s; p_eigenvalues := p_eigenvalues s;
          eigenvalues_are_up_to_date := if early then eigenvalues_are_up_to_date s else false |}, Told a)
  | Simulation (AddDForce kFactor DX DF) =>
      let s := if_needed s in (s, Told (DForces (addDForce (p_K (base s)) (k_rows s) kFactor DX DF)))
  | Simulation (AddKToMatrix kFact offset) =>
      let s := if_needed s in (s, Told (Added (addKToMatrix (p_K (base s)) (k_rows s) kFact offset)))
  | Simulation a => let (c, t) := step d (base s) a in (with_base s c, Told t)
  | GetK => (s, Matrix_is (k_rows s) (K_entries s))
  | AssembleStiffness x => (assemble_stiffness_at d s x, Done)
  | Eigenvalues => let s := eigenvalues s in (s, Values (p_eigenvalues s))
  | Cond => let s := eigenvalues s in (s, cond (p_eigenvalues s))
  end.
End Requests.

(** A force field before init (the members of HyperelasticForcefield.h:206-219 at construction)... *)
Definition created (x : list (list R)) (l : law) (E nu : R) (m : material) : forcefield :=
  {| base := {| current_x := x; material_law := l; young_modulus := E; poisson_ratio := nu; parameters := m; p_K := []; K_is_up_to_date := false |};
     k_rows := 0; p_eigenvalues := []; eigenvalues_are_up_to_date := false |}.
(** ... and after init (lines 57-60). *)
Definition init (d : domain) (x : list (list R)) (l : law) (E nu : R) (m : material) : forcefield :=
  assemble_stiffness_now d (created x l E nu m).
