(** The direct linear solvers: /repo/src/SofaCaribou/Solver/EigenSolver.inl and .h, LDLTSolver.inl, LLTSolver.inl, LUSolver.inl.
    The three derived classes only differ by the Eigen decomposition they hold.  What Eigen's decompositions do is a parameter (section
    below); their documented rules of use are explicit: breaking one is the outcome [Misuse].
    Simplifications: reals are exact; the exchange between the mechanical objects and the global vectors (SOFA's multiVector2BaseVector and
    baseVector2MultiVector) is a copy; a mechanical vector has the dimension of the system; the matrix that [assemble] produces is given by the caller
    (the assembly itself is C20, C44, C50). *)

From Coq Require Import Reals List Arith Bool.
Import ListNotations.
Open Scope R_scope.

(** A sparse square matrix: its dimension, the positions of the stored entries in increasing order, and the values. *)
Record matrix := Matrix { rows : nat; stored : list (nat * nat); value : nat -> nat -> R }.

(** SimplicialLDLT and SimplicialLLT (LDLTSolver.cpp:8, LLTSolver.cpp:8: the default UpLo, Lower) read the lower triangle; SparseLU reads everything. *)
Inductive decomposition := LDLT | LLT | LU.
Definition lower (v : nat -> nat -> R) (i j : nat) : R := if (j <=? i)%nat then v i j else v j i.
Definition read_by (d : decomposition) (v : nat -> nat -> R) : nat -> nat -> R := match d with LU => v | _ => lower v end.
Definition position_eq_dec : forall a b : nat * nat, {a = b} + {a <> b}.
Proof. decide equality; apply Nat.eq_dec. Defined.
Definition pattern := (nat * list (nat * nat))%type.
Definition pattern_read (d : decomposition) (A : matrix) : pattern :=
  (rows A, match d with LU => stored A | _ => filter (fun e => (snd e <=? fst e)%nat) (stored A) end).

Inductive outcome (S : Type) := Done (s : S) | Misuse.
Arguments Done {S}. Arguments Misuse {S}.

Section Solver.
(** What the decomposition [d] does of the [n] by [n] matrix: the numerical factorisation fails, or gives a way to solve. *)
Variable decompose : decomposition -> nat -> (nat -> nat -> R) -> option (list R -> list R).
(** Does the symbolic analysis of a pattern succeed? *)
Variable analysable : decomposition -> pattern -> bool.

(** p_solver: the analysed pattern, the last numerical factorisation ([Some None] if it failed), and info(). *)
Record eigen := Eigen { analysis : option pattern; factorisation : option (option (list R -> list R)); info : bool }.
(** The component: p_A, the Eigen object, p_A_is_factorized, p_b, p_x, and the mechanical vector of identifier p_x_id. *)
Record component := Component {
  p_A : matrix; p_solver : eigen; p_A_is_factorized : bool; p_b : list R; p_x : list R; mechanical_x : list R }.
Definition empty_matrix : matrix := Matrix 0 [] (fun _ _ => 0).
(** EigenSolver.h: the initial values of the members. *)
Definition initial : component := Component empty_matrix (Eigen None None false) false [] [] [].

(** LDLTSolver.inl:42-51, LLTSolver.inl:41-50, LUSolver.inl:47-60: Eigen's analyzePattern; a previous factorisation is lost. *)
Definition analyze_pattern (d : decomposition) (A : matrix) (e : eigen) : eigen * bool :=
  let ok := analysable d (pattern_read d A) in
  (Eigen (if ok then Some (pattern_read d A) else None) None ok, ok).
(** LDLTSolver.inl:53-63 and the same in the other two: Eigen's factorize.  Eigen: "The given matrix must have the same sparsity pattern as the
    matrix on which the symbolic decomposition has been performed"; it must have been performed. *)
Definition same_pattern (a b : pattern) : bool :=
  if list_eq_dec position_eq_dec (snd a) (snd b) then Nat.eqb (fst a) (fst b) else false.
Definition factorize (d : decomposition) (A : matrix) (e : eigen) : outcome (eigen * bool) :=
  match analysis e with
  | Some p => if same_pattern p (pattern_read d A)
              then let f := decompose d (rows A) (read_by d (value A)) in
                   let ok := match f with Some _ => true | None => false end in
                   Done (Eigen (Some p) (Some f) ok, ok)
              else Misuse
  | None => Misuse
  end.
(** LDLTSolver.inl:65-73 and the same in the other two: Eigen's solve.  The simplicial decompositions do nothing when info() is not Success
    (the vector assigned is then unspecified: here unchanged); SparseLU requires a successful factorisation. *)
Definition solve (d : decomposition) (e : eigen) (F X : list R) : outcome (list R * bool) :=
  match factorisation e with
  | Some (Some f) => Done (f F, info e)
  | Some None => match d with LU => Misuse | _ => Done (X, info e) end
  | None => Misuse
  end.

(** EigenSolver.inl:23-29. *)
Definition resetSystem (s : component) : component :=
  Component empty_matrix (p_solver s) (p_A_is_factorized s) [] [] (mechanical_x s).
(** EigenSolver.inl:108-146, with [assemble] (31-106) giving [A]: the pattern is analysed if the dimension changed, a failure is only reported. *)
Definition setSystemMBKMatrix (d : decomposition) (A : matrix) (s : component) : outcome component :=
  let e := if negb (Nat.eqb (rows (p_A s)) (rows A)) then fst (analyze_pattern d A (p_solver s)) else p_solver s in
  match factorize d A e with
  | Misuse => Misuse
  | Done (e, ok) => Done (Component A e ok (p_b s) (p_x s) (mechanical_x s))
  end.
(** EigenSolver.inl:148-164. *)
Definition setSystemRHVector (b : list R) (s : component) : component :=
  Component (p_A s) (p_solver s) (p_A_is_factorized s) b (p_x s) (mechanical_x s).
(** EigenSolver.inl:166-183: the mechanical vector [x] is the one where the result will be stored. *)
Definition setSystemLHVector (x : list R) (s : component) : component :=
  Component (p_A s) (p_solver s) (p_A_is_factorized s) (p_b s) x x.
(** EigenSolver.inl:185-203: p_A_is_factorized is not consulted; the result is copied in the mechanical objects on success only. *)
Definition solveSystem (d : decomposition) (s : component) : outcome component :=
  match solve d (p_solver s) (p_b s) (p_x s) with
  | Misuse => Misuse
  | Done (x, ok) => Done (Component (p_A s) (p_solver s) (p_A_is_factorized s) (p_b s) x (if ok then x else mechanical_x s))
  end.

(** One use of the component by the ODE solvers (LegacyStaticODESolver.cpp:170-240): the matrix, the two vectors, the solve; or a reset. *)
Inductive call := Use (A : matrix) (b x : list R) | Reset.
Definition run_call (d : decomposition) (c : call) (s : component) : outcome component :=
  match c with
  | Reset => Done (resetSystem s)
  | Use A b x =>
    match setSystemMBKMatrix d A s with
    | Misuse => Misuse
    | Done s => solveSystem d (setSystemLHVector x (setSystemRHVector b s))
    end
  end.
(** The states after each call. *)
Fixpoint run (d : decomposition) (h : list call) (s : component) : outcome (list component) :=
  match h with
  | [] => Done []
  | c :: h => match run_call d c s with
              | Misuse => Misuse
              | Done s => match run d h s with Misuse => Misuse | Done l => Done (s :: l) end
              end
  end.
End Solver.
