(** Eigen's sparse matrices, as far as the code uses them.  Eigen is not part of /repo; these definitions state the
    effect of the calls that /repo makes.  Entries are real numbers. *)

From Coq Require Import Reals List Arith Bool.
From Verif Require Import GridGeoModel ShapeModel.
Import ListNotations.
Open Scope R_scope.

(** Eigen::Triplet: (row, column, value) *)
Definition triplet : Type := (nat * nat * R)%type.
Definition row_of (t : triplet) : nat := fst (fst t).
Definition col_of (t : triplet) : nat := snd (fst t).
Definition value_of (t : triplet) : R := snd t.
Definition at_position (i j : nat) (t : triplet) : bool := (Nat.eqb (row_of t) i && Nat.eqb (col_of t) j)%bool.

(** setFromTriplets: duplicates are summed.  Used at
    /repo/src/SofaCaribou/Mapping/CaribouBarycentricMapping.inl:122 and
    /repo/src/SofaCaribou/Forcefield/HyperelasticForcefield.inl:530. *)
Definition coeff (ts : list triplet) (i j : nat) : R := Rsum (map value_of (filter (at_position i j) ts)).
(** (i, j) is a stored coefficient. *)
Definition stored (ts : list triplet) (i j : nat) : bool := existsb (at_position i j) ts.

(** Compressed inner vector of the outer index j of a column-major matrix with [n] rows: (row, value) by increasing
    row. *)
Definition inner_vector (ts : list triplet) (n j : nat) : list (nat * R) :=
  map (fun i => (i, coeff ts i j)) (filter (fun i => stored ts i j) (seq 0 n)).

(** CompressedStorage::searchLowerIndex(start, end, key): binary search in the inner indices; [fuel] is at least
    end - start at every call (each turn shortens the range). *)
Fixpoint searchLowerIndex_loop (index : nat -> nat) (key : nat) (fuel start end_ : nat) : nat :=
  match fuel with
  | O => start
  | S fuel =>
      if Nat.ltb start end_ then
        let mid := Nat.div2 (end_ + start) in
        if Nat.ltb (index mid) key then searchLowerIndex_loop index key fuel (mid + 1) end_
        else searchLowerIndex_loop index key fuel start mid
      else start
  end.
Definition searchLowerIndex (index : nat -> nat) (start end_ key : nat) : nat :=
  searchLowerIndex_loop index key (end_ - start) start end_.
