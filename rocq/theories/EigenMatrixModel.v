(** Model of the wrapper around Eigen's sparse matrices, /repo/src/SofaCaribou/Algebra/EigenMatrix.h:170-483
    (cited as E:lines), and of the part of Eigen's storage the wrapper manipulates directly.  Eigen itself is not part
    of /repo.  Entries are real numbers, indices are unbounded; accesses out of the matrix are not modelled (the
    theorems ask for indices within the size of the matrix). *)

From Coq Require Import Reals List Arith Bool.
From Verif Require Import SparseModel.
Import ListNotations.
Open Scope R_scope.
Open Scope nat_scope.

(** One inner vector (a row in row-major, a column in column-major): the part of the index and value arrays from
    outerIndexPtr()[j] to outerIndexPtr()[j+1].  The coefficients are the [nnz] first ones.  When the matrix is not
    compressed, the rest is free room, with whatever was left there. *)
Record inner := { data : list (nat * R); nnz : nat }.
Definition index (l : list (nat * R)) (p : nat) : nat := fst (nth p l (0, 0%R)).
Definition value (l : list (nat * R)) (p : nat) : R := snd (nth p l (0, 0%R)).

(** Eigen::SparseMatrix.  Simplification: the inner vectors are separate lists; in Eigen they follow each other in
    the two arrays, so the range from outerIndexPtr()[a] to outerIndexPtr()[b+1] is the vectors a to b. *)
Record sparse := { rowMajor : bool; rows : nat; cols : nat; vectors : list inner }.
Definition outerSize (m : sparse) : nat := if rowMajor m then rows m else cols m.
Definition outer_of (m : sparse) (i j : nat) : nat := if rowMajor m then i else j.
Definition inner_of (m : sparse) (i j : nat) : nat := if rowMajor m then j else i.
Definition vector (m : sparse) (k : nat) : inner := nth k (vectors m) {| data := []; nnz := 0 |}.
Definition with_vectors (m : sparse) (l : list inner) : sparse :=
  {| rowMajor := rowMajor m; rows := rows m; cols := cols m; vectors := l |}.

(** Search of an index among the [end_] first ones, and test that it is there: Eigen's coeff and coeffRef, and the
    code of the wrapper (for example E:308-309). *)
Definition search (l : list (nat * R)) (end_ key : nat) : option nat :=
  let id := searchLowerIndex (index l) 0 end_ key in
  if (Nat.ltb id end_ && Nat.eqb (index l id) key)%bool then Some id else None.

(** Assign the value at a position. *)
Definition assign (l : list (nat * R)) (p : nat) (v : R) : list (nat * R) :=
  firstn p l ++ (index l p, v) :: skipn (S p) l.
(** Change one inner vector. *)
Definition at_vector (l : list inner) (k : nat) (f : inner -> inner) : list inner :=
  firstn k l ++ f (nth k l {| data := []; nnz := 0 |}) :: skipn (S k) l.

(** Eigen: coeff(i, j). *)
Definition coefficient (m : sparse) (i j : nat) : R :=
  let v := vector m (outer_of m i j) in
  match search (data v) (nnz v) (inner_of m i j) with
  | Some p => value (data v) p
  | None => 0%R
  end.

(** Eigen: a new coefficient is put before the first one of larger index. *)
Fixpoint insert_sorted (key : nat) (v : R) (l : list (nat * R)) : list (nat * R) :=
  match l with
  | [] => [(key, v)]
  | (k, w) :: l' => if Nat.ltb key k then (key, v) :: l else (k, w) :: insert_sorted key v l'
  end.

(** What Eigen leaves in the free room of each inner vector when a coefficient is inserted: stale or uninitialised
    memory, chosen freely.  (Eigen 3.3 moves the vectors towards the end of the arrays and does not erase.) *)
Definition leftover := nat -> list (nat * R).

(** Eigen: coeffRef(i, j) = f(coeffRef(i, j)); inserts the coefficient (0 at first) when it is not stored, and makes
    room for it, which moves every inner vector. *)
Definition coeffRef (m : sparse) (i j : nat) (f : R -> R) (free : leftover) : sparse :=
  let k := outer_of m i j in
  let v := vector m k in
  match search (data v) (nnz v) (inner_of m i j) with
  | Some p => with_vectors m (at_vector (vectors m) k (fun v => {| data := assign (data v) p (f (value (data v) p)); nnz := nnz v |}))
  | None =>
      with_vectors m (map (fun q =>
        let w := vector m q in
        let active := firstn (nnz w) (data w) in
        let active := if Nat.eqb q k then insert_sorted (inner_of m i j) (f 0%R) active else active in
        {| data := active ++ free q; nnz := length active |}) (seq 0 (outerSize m)))
  end.

(** Eigen: setFromTriplets forgets the content, sums duplicates, and gives a compressed matrix. *)
Definition setFromTriplets (m : sparse) (ts : list triplet) : sparse :=
  with_vectors m (map (fun k =>
    let l := if rowMajor m then inner_vector (map (fun t => (col_of t, row_of t, value_of t)) ts) (cols m) k
             else inner_vector ts (rows m) k in
    {| data := l; nnz := length l |}) (seq 0 (outerSize m))).
(** Eigen: resize and setZero. *)
Definition empty_sparse (rm : bool) (r c : nat) : sparse :=
  {| rowMajor := rm; rows := r; cols := c; vectors := map (fun _ => {| data := []; nnz := 0 |}) (seq 0 (if rm then r else c)) |}.
(** Eigen: makeCompressed drops the free room. *)
Definition makeCompressed (m : sparse) : sparse :=
  with_vectors m (map (fun v => {| data := firstn (nnz v) (data v); nnz := nnz v |}) (vectors m)).
Definition isCompressed (m : sparse) : Prop := Forall (fun v => nnz v = length (data v)) (vectors m).

(** The wrapper, E:468-482. *)
Record wrapper := { p_triplets : list triplet; p_initialized : bool; p_eigen_matrix : sparse; p_is_symmetric : bool }.

(** E:187: constructor from an existing matrix (by value or by reference). *)
Definition wrap (m : sparse) : wrapper :=
  {| p_triplets := []; p_initialized := false; p_eigen_matrix := m; p_is_symmetric := false |}.
(** E:194: rows x cols matrix; [rm]: the storage order chosen by the type. *)
Definition new_wrapper (rm : bool) (r c : nat) : wrapper := wrap (empty_sparse rm r c).
(** E:202-203 *)
Definition rowSize (w : wrapper) : nat := rows (p_eigen_matrix w).
Definition colSize (w : wrapper) : nat := cols (p_eigen_matrix w).
(** E:213 *)
Definition set_symmetric (w : wrapper) (b : bool) : wrapper :=
  {| p_triplets := p_triplets w; p_initialized := p_initialized w; p_eigen_matrix := p_eigen_matrix w; p_is_symmetric := b |}.
(** E:220-223; the assertion, active in debug builds only, is left out. *)
Definition element (w : wrapper) (i j : nat) : R := coefficient (p_eigen_matrix w) i j.
(** E:226-230 *)
Definition resize (w : wrapper) (r c : nat) : wrapper :=
  {| p_triplets := []; p_initialized := false;
     p_eigen_matrix := empty_sparse (rowMajor (p_eigen_matrix w)) r c; p_is_symmetric := p_is_symmetric w |}.
(** E:233-237 *)
Definition clear (w : wrapper) : wrapper :=
  {| p_triplets := []; p_initialized := false;
     p_eigen_matrix := empty_sparse (rowMajor (p_eigen_matrix w)) (rowSize w) (colSize w);
     p_is_symmetric := p_is_symmetric w |}.
(** E:462-466 *)
Definition initialize (w : wrapper) : wrapper :=
  {| p_triplets := []; p_initialized := true;
     p_eigen_matrix := setFromTriplets (p_eigen_matrix w) (p_triplets w); p_is_symmetric := p_is_symmetric w |}.
(** if (not p_initialized) initialize(): E:248-250, 294-296, 318-320, 346-348, 370-372, 398-400 *)
Definition ensure_initialized (w : wrapper) : wrapper := if p_initialized w then w else initialize w.
Definition with_matrix (w : wrapper) (m : sparse) : wrapper :=
  {| p_triplets := p_triplets w; p_initialized := p_initialized w; p_eigen_matrix := m; p_is_symmetric := p_is_symmetric w |}.
(** E:247-253 *)
Definition set (w : wrapper) (i j : nat) (v : R) (free : leftover) : wrapper :=
  let w := ensure_initialized w in
  with_matrix w (coeffRef (p_eigen_matrix w) i j (fun _ => v) free).
(** E:261-270 *)
Definition add (w : wrapper) (i j : nat) (v : R) (free : leftover) : wrapper :=
  if p_initialized w then with_matrix w (coeffRef (p_eigen_matrix w) i j (fun u => (u + v)%R) free)
  else {| p_triplets := p_triplets w ++ [(i, j, v)]; p_initialized := false;
          p_eigen_matrix := p_eigen_matrix w; p_is_symmetric := p_is_symmetric w |}.
(** E:442-455; N x C blocks.  The branch for each entry is that of add.  [free p]: left by the p-th insertion. *)
Definition add_block (w : wrapper) (i j n c : nat) (m : nat -> nat -> R) (free : nat -> leftover) : wrapper :=
  fold_left (fun w k => fold_left (fun w l => add w (i + k) (j + l) (m k l) (free (k * c + l))) (seq 0 c) w) (seq 0 n) w.
(** E:278-284 *)
Definition compress (w : wrapper) : wrapper :=
  if p_initialized w then with_matrix w (makeCompressed (p_eigen_matrix w)) else initialize w.

(** std::memset of the values of the inner vectors a to b (inclusively): E:301-303, 325-327, 353-355, 377-379, 405-407 *)
Definition memset_vectors (m : sparse) (a b : nat) : sparse :=
  with_vectors m (map (fun k =>
    let v := vector m k in
    if (Nat.leb a k && Nat.leb k b)%bool then {| data := map (fun e => (fst e, 0%R)) (data v); nnz := nnz v |} else v)
    (seq 0 (outerSize m))).
(** One binary search in an inner vector, over all its room, and zero if found: E:306-311, 358-363, 416-421, 425-430 *)
Definition zero_at (key : nat) (v : inner) : inner :=
  match search (data v) (length (data v)) key with
  | Some p => {| data := assign (data v) p 0%R; nnz := nnz v |}
  | None => v
  end.
Definition zero_inner (m : sparse) (key : nat) : sparse := with_vectors m (map (zero_at key) (vectors m)).
(** E:333-339, 385-391: loop from the position found to the end of the room *)
Fixpoint zero_range (imin imax : nat) (l : list (nat * R)) : list (nat * R) :=
  match l with
  | [] => []
  | (k, v) :: l' =>
      if (Nat.leb imin k && Nat.leb k imax)%bool then (k, 0%R) :: zero_range imin imax l'
      else if Nat.ltb imax k then l
      else (k, v) :: zero_range imin imax l'
  end.
(** E:329-340, 381-392 *)
Definition zero_inner_range (m : sparse) (imin imax : nat) : sparse :=
  with_vectors m (map (fun v =>
    let id := searchLowerIndex (index (data v)) 0 (length (data v)) imin in
    {| data := firstn id (data v) ++ zero_range imin imax (skipn id (data v)); nnz := nnz v |}) (vectors m)).

(** E:293-314 *)
Definition clearRow (w : wrapper) (i : nat) : wrapper :=
  let w := ensure_initialized w in
  let m := p_eigen_matrix w in
  with_matrix w (if rowMajor m then memset_vectors m i i else zero_inner m i).
(** E:317-342 *)
Definition clearRows (w : wrapper) (imin imax : nat) : wrapper :=
  let w := ensure_initialized w in
  let m := p_eigen_matrix w in
  with_matrix w (if rowMajor m then memset_vectors m imin imax else zero_inner_range m imin imax).
(** E:345-366 *)
Definition clearCol (w : wrapper) (j : nat) : wrapper :=
  let w := ensure_initialized w in
  let m := p_eigen_matrix w in
  with_matrix w (if rowMajor m then zero_inner m j else memset_vectors m j j).
(** E:369-394 *)
Definition clearCols (w : wrapper) (imin imax : nat) : wrapper :=
  let w := ensure_initialized w in
  let m := p_eigen_matrix w in
  with_matrix w (if rowMajor m then zero_inner_range m imin imax else memset_vectors m imin imax).
(** E:397-433 *)
Definition clearRowCol (w : wrapper) (i : nat) : wrapper :=
  let w := ensure_initialized w in
  let m := memset_vectors (p_eigen_matrix w) i i in
  with_matrix w
    (if (p_is_symmetric w && Nat.eqb (rows m) (cols m))%bool then
       let v := vector m i in
       with_vectors m (fold_left (fun l e => at_vector l (fst e) (zero_at i)) (firstn (nnz v) (data v)) (vectors m))
     else zero_inner m i).

(** The calls a user can make. *)
Inductive call :=
| Resize (r c : nat)
| Clear
| Set_ (i j : nat) (v : R)
| Add (i j : nat) (v : R)
| AddBlock (i j n c : nat) (m : nat -> nat -> R)
| Compress
| ClearRow (i : nat)
| ClearRows (imin imax : nat)
| ClearCol (j : nat)
| ClearCols (jmin jmax : nat)
| ClearRowCol (i : nat)
| SetSymmetric (b : bool).
Definition step (w : wrapper) (cf : call * (nat -> leftover)) : wrapper :=
  let free := snd cf in
  match fst cf with
  | Resize r c => resize w r c
  | Clear => clear w
  | Set_ i j v => set w i j v (free 0)
  | Add i j v => add w i j v (free 0)
  | AddBlock i j n c m => add_block w i j n c m free
  | Compress => compress w
  | ClearRow i => clearRow w i
  | ClearRows a b => clearRows w a b
  | ClearCol j => clearCol w j
  | ClearCols a b => clearCols w a b
  | ClearRowCol i => clearRowCol w i
  | SetSymmetric b => set_symmetric w b
  end.
Definition run (w : wrapper) (h : list (call * (nat -> leftover))) : wrapper := fold_left step h w.
