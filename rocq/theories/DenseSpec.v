(** What a user expects of the wrappers of dense matrices and vectors. *)

From Coq Require Import Reals List Arith Bool.
From Verif Require Import EigenMatrixModel EigenMatrixSpec DenseModel.
Import ListNotations.
Open Scope nat_scope.

(** Tables whose entries may be unknown (memory never written). *)
Definition partial_table := nat -> nat -> option R.
Definition known (t : table) : partial_table := fun i j => Some (t i j).
Definition unknown : partial_table := fun _ _ => None.
Definition plus_known (x : option R) (v : R) : option R := option_map (fun u => (u + v)%R) x.
(** The calls on such a table. *)
Definition effect (c : call) (t : partial_table) : partial_table :=
  let zero (p : nat -> nat -> bool) := fun i j => if p i j then Some 0%R else t i j in
  match c with
  | Resize _ _ | Clear => known all_zero
  | Set_ i j v => fun i' j' => if is_at i j i' j' then Some v else t i' j'
  | Add i j v => fun i' j' => if is_at i j i' j' then plus_known (t i' j') v else t i' j'
  | AddBlock i j n c b => fun i' j' => if in_block i j n c i' j' then plus_known (t i' j') (b (i' - i) (j' - j)) else t i' j'
  | Compress | SetSymmetric _ => t
  | ClearRow i => zero (fun i' _ => Nat.eqb i i')
  | ClearRows a b => zero (fun i' _ => between a b i')
  | ClearCol j => zero (fun _ j' => Nat.eqb j j')
  | ClearCols a b => zero (fun _ j' => between a b j')
  | ClearRowCol i => zero (fun i' j' => (Nat.eqb i i' || Nat.eqb i j')%bool)
  end.
Definition table_after (t : partial_table) (calls : list call) : partial_table := fold_left (fun t c => effect c t) calls t.
(** The matrix shows this table. *)
Definition shows (m : dense) (s : nat * nat) (t : partial_table) : Prop :=
  dense_size m = s /\ forall i j, i < fst s -> j < snd s -> dense_element m i j = t i j.
Definition calls_in_range (s : nat * nat) (calls : list call) : Prop :=
  forall before c after, calls = before ++ c :: after -> in_range (size_of s before) c.

(** The same for vectors. *)
Definition v_effect (c : vcall) (t : nat -> option R) : nat -> option R :=
  match c with
  | VResize _ | VClear => fun _ => Some 0%R
  | VSet i v => fun i' => if Nat.eqb i i' then Some v else t i'
  | VAdd i v => fun i' => if Nat.eqb i i' then plus_known (t i') v else t i'
  end.
Definition v_after (t : nat -> option R) (calls : list vcall) : nat -> option R := fold_left (fun t c => v_effect c t) calls t.
Definition v_size_after (n : nat) (calls : list vcall) : nat :=
  fold_left (fun n c => match c with VResize n => n | _ => n end) calls n.
Definition v_shows (x : list cell) (n : nat) (t : nat -> option R) : Prop :=
  v_size x = n /\ forall i, i < n -> v_element x i = t i.
Definition v_in_range (n : nat) (calls : list vcall) : Prop :=
  forall before c after, calls = before ++ c :: after ->
    match c with VSet i _ | VAdd i _ => i < v_size_after n before | _ => True end.

(** Which calls of a program concern what. *)
Section Concern.
  Context {op shape content : Type}.
  (** Made by the program: for each wrapper, the matrix of the user that it refers to, if any; and the number of matrices of
      the user. *)
  Definition reference_of (c : command op shape content) : list (option nat) :=
    match c with WrapReference k => [Some k] | WrapCopy _ | WrapNew _ => [None] | _ => [] end.
  Definition references (p : list (command op shape content)) : list (option nat) := flat_map reference_of p.
  Definition declared (p : list (command op shape content)) : nat :=
    length (filter (fun c => match c with Declare _ _ => true | _ => false end) p).
  (** The calls made through wrapper n. *)
  Definition calls_through (n : nat) (p : list (command op shape content)) : list op :=
    flat_map (fun c => match c with Through w o => if Nat.eqb w n then [o] else [] | _ => [] end) p.
  (** The calls on matrix k of the user, made directly or through any wrapper that refers to it (refs: those of the wrappers
      that exist). *)
  Fixpoint calls_on (refs : list (option nat)) (k : nat) (p : list (command op shape content)) : list op :=
    match p with
    | [] => []
    | c :: p =>
        (match c with
         | Direct k' o => if Nat.eqb k' k then [o] else []
         | Through n o => match nth n refs None with Some k' => if Nat.eqb k' k then [o] else [] | None => [] end
         | _ => []
         end) ++ calls_on (refs ++ reference_of c) k p
    end.
End Concern.
