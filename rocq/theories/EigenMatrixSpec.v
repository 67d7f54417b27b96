(** What a user expects of the calls of the matrix wrapper: the same calls on a table of real numbers. *)

From Coq Require Import Reals List Arith Bool Sorted.
From Verif Require Import EigenMatrixModel.
Import ListNotations.
Open Scope nat_scope.

(** A table of numbers. *)
Definition table := nat -> nat -> R.
Definition all_zero : table := fun _ _ => 0%R.
Definition zero_where (p : nat -> nat -> bool) (t : table) : table := fun i j => if p i j then 0%R else t i j.
Definition is_at (i j i' j' : nat) : bool := (Nat.eqb i i' && Nat.eqb j j')%bool.
Definition between (a b k : nat) : bool := (Nat.leb a k && Nat.leb k b)%bool.
Definition in_block (i j n c i' j' : nat) : bool :=
  (Nat.leb i i' && Nat.ltb i' (i + n) && Nat.leb j j' && Nat.ltb j' (j + c))%bool.
Definition meaning (c : call) (t : table) : table :=
  match c with
  | Resize _ _ | Clear => all_zero
  | Set_ i j v => fun i' j' => if is_at i j i' j' then v else t i' j'
  | Add i j v => fun i' j' => if is_at i j i' j' then (t i' j' + v)%R else t i' j'
  | AddBlock i j n c m => fun i' j' => if in_block i j n c i' j' then (t i' j' + m (i' - i)%nat (j' - j)%nat)%R else t i' j'
  | Compress | SetSymmetric _ => t
  | ClearRow i => zero_where (fun i' _ => Nat.eqb i i') t
  | ClearRows a b => zero_where (fun i' _ => between a b i') t
  | ClearCol j => zero_where (fun _ j' => Nat.eqb j j') t
  | ClearCols a b => zero_where (fun _ j' => between a b j') t
  | ClearRowCol i => zero_where (fun i' j' => (Nat.eqb i i' || Nat.eqb i j')%bool) t
  end.
Definition table_of (calls : list call) : table := fold_left (fun t c => meaning c t) calls all_zero.

(** Size of the matrix after the calls. *)
Definition new_size (c : call) (s : nat * nat) : nat * nat := match c with Resize r c => (r, c) | _ => s end.
Definition size_of (s : nat * nat) (calls : list call) : nat * nat := fold_left (fun s c => new_size c s) calls s.

(** Positions written by add or set since the last resize or clear. *)
Definition new_written (c : call) (w : nat -> nat -> bool) : nat -> nat -> bool :=
  match c with
  | Resize _ _ | Clear => fun _ _ => false
  | Set_ i j _ | Add i j _ => fun i' j' => (is_at i j i' j' || w i' j')%bool
  | AddBlock i j n c _ => fun i' j' => (in_block i j n c i' j' || w i' j')%bool
  | _ => w
  end.
Definition written (calls : list call) : nat -> nat -> bool :=
  fold_left (fun w c => new_written c w) calls (fun _ _ => false).
Definition declared_symmetric (calls : list call) : bool :=
  fold_left (fun b c => match c with SetSymmetric b' => b' | _ => b end) calls false.

(** Where the user stands: collecting entries (after a resize or clear, only add was called); settled (compressed or
    cleared in parts, and only entries written before were written again since); or loose (new entries written since). *)
Inductive phase := Collecting | Settled | Loose.
Definition after_write (known : bool) (p : phase) : phase := if known then p else Loose.
Definition new_phase (c : call) (w : nat -> nat -> bool) (p : phase) : phase :=
  match c with
  | Resize _ _ | Clear => Collecting
  | Set_ i j _ => after_write (w i j) (match p with Collecting => Settled | p => p end)
  | Add i j _ => match p with Collecting => Collecting | p => after_write (w i j) p end
  | AddBlock i j n c _ =>
      match p with
      | Collecting => Collecting
      | p => after_write (forallb (fun k => forallb (fun l => w (i + k) (j + l)) (seq 0 c)) (seq 0 n)) p
      end
  | Compress => Settled
  | ClearRow _ | ClearRows _ _ | ClearCol _ | ClearCols _ _ | ClearRowCol _ =>
      match p with Collecting => Settled | p => p end
  | SetSymmetric _ => p
  end.
Definition phase_of (calls : list call) : phase :=
  fst (fold_left (fun s c => (new_phase c (snd s) (fst s), new_written c (snd s))) calls (Collecting, fun _ _ => false)).

(** The indices of a call are within the matrix. *)
Definition in_range (s : nat * nat) (c : call) : Prop :=
  match c with
  | Set_ i j _ | Add i j _ => i < fst s /\ j < snd s
  | AddBlock i j n c _ => i + n <= fst s /\ j + c <= snd s
  | ClearRow i => i < fst s
  | ClearRows a b => a <= b < fst s
  | ClearCol j => j < snd s
  | ClearCols a b => a <= b < snd s
  | ClearRowCol i => i < fst s /\ i < snd s
  | _ => True
  end.
(** Rows (columns) of a column-major (row-major) matrix are cleared while no new entry was written since the last
    compression, and when the matrix was declared symmetric, the transposes of its nonzero entries were written too (this
    is so if the table is symmetric, and also if the set of written entries is). *)
Definition careful (rm : bool) (before : list call) (c : call) : Prop :=
  match c with
  | ClearRow _ | ClearRows _ _ => rm = true \/ phase_of before <> Loose
  | ClearCol _ | ClearCols _ _ => rm = false \/ phase_of before <> Loose
  | ClearRowCol _ =>
      phase_of before <> Loose /\
      (declared_symmetric before = true -> forall i j, table_of before i j <> 0%R -> written before j i = true)
  | _ => True
  end.
(** Every call of the sequence is in range and careful. *)
Definition legal (rm : bool) (s : nat * nat) (calls : list call) : Prop :=
  forall before c after, calls = before ++ c :: after -> in_range (size_of s before) c /\ careful rm before c.

(** A well-formed sparse matrix: the coefficients of each inner vector have increasing indices within the size. *)
Definition coefficients (m : sparse) (k : nat) : list (nat * R) := firstn (nnz (vector m k)) (data (vector m k)).
Definition valid (m : sparse) : Prop :=
  length (vectors m) = outerSize m /\
  forall k, k < outerSize m ->
    nnz (vector m k) <= length (data (vector m k)) /\
    StronglySorted lt (map fst (coefficients m k)) /\
    Forall (fun e => fst e < if rowMajor m then cols m else rows m) (coefficients m k).
(** The entry (i, j) is stored. *)
Definition stored_in (m : sparse) (i j : nat) : Prop := In (inner_of m i j) (map fst (coefficients m (outer_of m i j))).
(** A wrapper in use, whose matrix is compressed. *)
Definition ready (w : wrapper) : Prop :=
  p_initialized w = true /\ valid (p_eigen_matrix w) /\ isCompressed (p_eigen_matrix w).
(** The second state is the first one with the designated entries zeroed. *)
Definition only_zeroed (p : nat -> nat -> bool) (w w' : wrapper) : Prop :=
  ready w' /\ rowSize w' = rowSize w /\ colSize w' = colSize w /\
  forall i j, i < rowSize w -> j < colSize w -> element w' i j = if p i j then 0%R else element w i j.
