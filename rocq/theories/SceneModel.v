(** The linear system of a scene with several bodies: Solver/EigenSolver.inl:28-107 (assemble; ES), 146-193 (vectors),
    195-211 (solveSystem), Visitor/AssembleGlobalMatrix.cpp and .h, Visitor/ConstrainGlobalMatrix.cpp and .h; the same steps in
    Ode/StaticODESolver.cpp:61-97 and Ode/BackwardEulerODESolver.cpp:160-199.
    A scene is what the visitors find, in their order: the mechanical states (each with the mapping it comes from, if any,
    after the state it is mapped from), the force fields and the projective constraints, each with the state it acts on.
    Simplifications: a mapping has one input state, found before; the nodes below a mapped state only hold states mapped from it.
    SOFA's part is modelled by its effect as the comments of EigenSolver.inl describe it: one block of the global matrix
    for each state that is not mapped, in their order (ES:46-62); the matrices of the mapped states are tables of numbers;
    computeGlobalMatrix adds [J^t A' J], last mapping first (ES:87-95). *)

From Coq Require Import Reals List Arith Bool.
From Verif Require Import GridGeoModel ShapeModel EigenMatrixModel EigenMatrixSpec.
Import ListNotations.
Open Scope nat_scope.

(** A mechanical state: its number of unknowns; if it is mapped, the number of the input state, areMatricesMapped() and
    getJ(). *)
Record state := { unknowns : nat; mapping : option (nat * bool * (nat -> nat -> R)) }.
(** A force field: the state it acts on and the entries its addMBKToMatrix adds.  A projective constraint: its state and the
    unknowns it fixes, node by node. *)
Record scene := {
  states : list state;
  force_fields : list (nat * list (nat * nat * R));
  constraints : list (nat * list (list nat)) }.
Definition no_state : state := {| unknowns := 0; mapping := None |}.
Definition state_at (sc : scene) (s : nat) : state := nth s (states sc) no_state.
Definition size (sc : scene) (s : nat) : nat := unknowns (state_at sc s).

(** stopAtMechanicalMapping (AssembleGlobalMatrix.cpp:15-17, ConstrainGlobalMatrix.cpp:15-17): the visitor does not go below a
    mapping that does not map the matrices. *)
Fixpoint visit (l : list state) (seen : list bool) : list bool :=
  match l with
  | [] => seen
  | x :: l => visit l (seen ++ [match mapping x with None => true | Some (p, mapped, _) => (mapped && nth p seen false)%bool end])
  end.
Definition visited (sc : scene) (s : nat) : bool := nth s (visit (states sc) []) false.

(** ES:46-62: position of a state in the global system, global dimension. *)
Definition own_rows (x : state) : nat := match mapping x with None => unknowns x | Some _ => 0 end.
Definition offset (sc : scene) (s : nat) : nat := list_sum (map own_rows (firstn s (states sc))).
Definition dimension (sc : scene) : nat := list_sum (map own_rows (states sc)).
Definition is_free (sc : scene) (s : nat) : bool := match mapping (state_at sc s) with None => true | Some _ => false end.

(** AssembleGlobalMatrix.cpp:10-13 *)
Definition force_calls (o : nat) (entries : list (nat * nat * R)) : list call :=
  map (fun e => Add (o + fst (fst e)) (o + snd (fst e)) (snd e)) entries.
(** ConstrainGlobalMatrix.cpp:10-13; applyConstraint clears the rows and columns of each fixed node and puts ones on the
    diagonal. *)
Definition constraint_calls (o : nat) (groups : list (list nat)) : list call :=
  flat_map (fun g => map (fun d => ClearRowCol (o + d)) g ++ map (fun d => Set_ (o + d) (o + d) 1%R) g) groups.

(** Calls on the global matrix. *)
Definition global_force_calls (sc : scene) : list call :=
  flat_map (fun f => if (visited sc (fst f) && is_free sc (fst f))%bool then force_calls (offset sc (fst f)) (snd f) else []) (force_fields sc).
Definition global_constraint_calls (sc : scene) : list call :=
  flat_map (fun c => if (visited sc (fst c) && is_free sc (fst c))%bool then constraint_calls (offset sc (fst c)) (snd c) else []) (constraints sc).
(** The matrix of a mapped state. *)
Definition mapped_table (sc : scene) (s : nat) : table :=
  table_of (flat_map (fun f => if fst f =? s then force_calls 0 (snd f) else []) (force_fields sc) ++
            flat_map (fun c => if fst c =? s then constraint_calls 0 (snd c) else []) (constraints sc)).
(** [J^t A' J] *)
Definition pulled (m : nat) (J A : nat -> nat -> R) : nat -> nat -> R :=
  fun i j => Rsum (map (fun a => Rsum (map (fun b => (J a i * A a b * J b j)%R) (seq 0 m))) (seq 0 m)).
(** ES:87-95 *)
Fixpoint mapped_calls (sc : scene) (T : nat -> table) (ids : list nat) : list call :=
  match ids with
  | [] => []
  | s :: ids =>
      match mapping (state_at sc s) with
      | Some (p, _, J) =>
          if visited sc s then
            let B := pulled (size sc s) J (T s) in
            if is_free sc p then AddBlock (offset sc p) (offset sc p) (size sc p) (size sc p) B :: mapped_calls sc T ids
            else mapped_calls sc (fun k => if k =? p then fun i j => (T k i j + B i j)%R else T k) ids
          else mapped_calls sc T ids
      | None => mapped_calls sc T ids
      end
  end.
(** ES:28-107 *)
Definition assemble (sc : scene) (symmetric : bool) : list call :=
  Resize (dimension sc) (dimension sc) :: SetSymmetric symmetric ::
  global_force_calls sc ++ global_constraint_calls sc ++ mapped_calls sc (mapped_table sc) (rev (seq 0 (length (states sc)))) ++ [Compress].

(** ES:146-193: multiVector2BaseVector: the vectors of the states that are not mapped, one after the other; 195-211:
    baseVector2MultiVector: back. *)
Definition gather (sc : scene) (u : nat -> nat -> R) : list R :=
  flat_map (fun s => if is_free sc s then map (u s) (seq 0 (size sc s)) else []) (seq 0 (length (states sc))).
Definition scatter (sc : scene) (x : list R) (s i : nat) : R := nth (offset sc s + i) x 0%R.
