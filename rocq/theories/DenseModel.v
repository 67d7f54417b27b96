(** Wrappers of dense Eigen matrices and of Eigen vectors, that own their matrix (copy) or refer to one of the user. *)

From Coq Require Import Reals List Arith Bool.
From Verif Require Import EigenMatrixModel.
Import ListNotations.
Open Scope nat_scope.

(** A number in memory; None: memory never written to (Eigen does not initialise the memory it allocates). *)
Definition cell := option R.
(** x = 0, x = v and x += v on a number in memory. *)
Definition put (v : R) (x : cell) : cell := Some v.
Definition increase (v : R) (x : cell) : cell := match x with Some u => Some (u + v)%R | None => None end.
(** Change of the k-th number of an array. *)
Fixpoint modify (l : list cell) (k : nat) (g : cell -> cell) : list cell :=
  match l, k with
  | [], _ => []
  | x :: l, 0 => g x :: l
  | x :: l, S k => x :: modify l k g
  end.

(** A dense Eigen matrix with dynamic size: stored by rows or by columns.
    src/SofaCaribou/Algebra/EigenMatrix.h 164 (p_eigen_matrix).  Real numbers instead of doubles (the casts of the scalar
    types are the identity). *)
Record dense := { by_rows : bool; d_rows : nat; d_cols : nat; memory : list cell }.
Definition offset (m : dense) (i j : nat) : nat := if by_rows m then i * d_cols m + j else j * d_rows m + i.
Definition with_memory (m : dense) (l : list cell) : dense :=
  {| by_rows := by_rows m; d_rows := d_rows m; d_cols := d_cols m; memory := l |}.
Definition update (m : dense) (i j : nat) (g : cell -> cell) : dense := with_memory m (modify (memory m) (offset m i j) g).
(** The coefficient loop of an assignment to the block of size n x c at (i, j). *)
Definition update_block (m : dense) (i j n c : nat) (g : nat -> nat -> cell -> cell) : dense :=
  fold_left (fun m k => fold_left (fun m l => update m (i + k) (j + l) (g k l)) (seq 0 c) m) (seq 0 n) m.

(** rowSize, colSize, element.  src/SofaCaribou/Algebra/EigenMatrix.h 104-106.  element is None when the number read was
    never written; reads out of the range (an assertion of Eigen, undefined without it) are not modelled. *)
Definition dense_size (m : dense) : nat * nat := (d_rows m, d_cols m).
Definition dense_element (m : dense) (i j : nat) : cell := nth (offset m i j) (memory m) None.

(** The bounds asserted by Eigen: coefficient, block, row(s), column(s). *)
Definition block_fits (m : dense) (i j n c : nat) : bool := (Nat.leb (i + n) (d_rows m) && Nat.leb (j + c) (d_cols m))%bool.
Definition guarded (b : bool) (m : dense) : option dense := if b then Some m else None.

(** resize: setConstant(nbRow, nbCol, 0).  src/SofaCaribou/Algebra/EigenMatrix.h 109 *)
Definition dense_resize (m : dense) (r c : nat) : dense :=
  {| by_rows := by_rows m; d_rows := r; d_cols := c; memory := repeat (Some 0%R) (r * c) |}.
(** clear: setZero().  src/SofaCaribou/Algebra/EigenMatrix.h 112 *)
Definition dense_clear (m : dense) : dense := update_block m 0 0 (d_rows m) (d_cols m) (fun _ _ => put 0%R).
(** set.  src/SofaCaribou/Algebra/EigenMatrix.h 115-117 *)
Definition dense_set (m : dense) (i j : nat) (v : R) : option dense := guarded (block_fits m i j 1 1) (update m i j (put v)).
(** add.  src/SofaCaribou/Algebra/EigenMatrix.h 120-122 *)
Definition dense_add (m : dense) (i j : nat) (v : R) : option dense := guarded (block_fits m i j 1 1) (update m i j (increase v)).
(** add of a block (2x2 or 3x3 in the code, any size here).  src/SofaCaribou/Algebra/EigenMatrix.h 125-128, 157-161 *)
Definition dense_add_block (m : dense) (i j n c : nat) (b : nat -> nat -> R) : option dense :=
  guarded (block_fits m i j n c) (update_block m i j n c (fun k l => increase (b k l))).
(** clearRow: row(i).setZero().  src/SofaCaribou/Algebra/EigenMatrix.h 131-133 *)
Definition dense_clearRow (m : dense) (i : nat) : option dense :=
  guarded (Nat.ltb i (d_rows m)) (update_block m i 0 1 (d_cols m) (fun _ _ => put 0%R)).
(** clearRows: middleRows(imin, (imax-imin)+1).setZero(), a negative number of rows is an assertion of Eigen.
    src/SofaCaribou/Algebra/EigenMatrix.h 136-138 *)
Definition dense_clearRows (m : dense) (imin imax : nat) : option dense :=
  guarded (Nat.leb imin (imax + 1) && Nat.leb (imax + 1) (d_rows m))
    (update_block m imin 0 (imax + 1 - imin) (d_cols m) (fun _ _ => put 0%R)).
(** clearCol: col(i).setZero().  src/SofaCaribou/Algebra/EigenMatrix.h 141-143 *)
Definition dense_clearCol (m : dense) (j : nat) : option dense :=
  guarded (Nat.ltb j (d_cols m)) (update_block m 0 j (d_rows m) 1 (fun _ _ => put 0%R)).
(** clearCols: middleCols(imin, (imax-imin)+1).setZero().  src/SofaCaribou/Algebra/EigenMatrix.h 146-148 *)
Definition dense_clearCols (m : dense) (jmin jmax : nat) : option dense :=
  guarded (Nat.leb jmin (jmax + 1) && Nat.leb (jmax + 1) (d_cols m))
    (update_block m 0 jmin (d_rows m) (jmax + 1 - jmin) (fun _ _ => put 0%R)).
(** clearRowCol is not redefined by the dense wrapper: that of SOFA's BaseMatrix, clearRow(i) then clearCol(i).
    src/SofaCaribou/Algebra/EigenMatrix.h 71-72 (the base class; its body is in SOFA) *)
Definition dense_clearRowCol (m : dense) (i : nat) : option dense :=
  match dense_clearRow m i with Some m => dense_clearCol m i | None => None end.

(** The calls of the wrapper.  compress is not redefined: BaseMatrix::compress of SOFA does nothing.  set_symmetric does
    not exist in the dense wrapper: no effect.  None: an assertion of Eigen fails.
    src/SofaCaribou/Algebra/EigenMatrix.h 70-165 *)
Definition dense_call (m : dense) (c : call) : option dense :=
  match c with
  | Resize r c => Some (dense_resize m r c)
  | Clear => Some (dense_clear m)
  | Set_ i j v => dense_set m i j v
  | Add i j v => dense_add m i j v
  | AddBlock i j n c b => dense_add_block m i j n c b
  | Compress => Some m
  | ClearRow i => dense_clearRow m i
  | ClearRows a b => dense_clearRows m a b
  | ClearCol j => dense_clearCol m j
  | ClearCols a b => dense_clearCols m a b
  | ClearRowCol i => dense_clearRowCol m i
  | SetSymmetric _ => Some m
  end.

(** A matrix of the user with the numbers f. *)
Definition filled (s : bool * nat * nat) (f : nat -> nat -> R) : dense :=
  let '(rm, r, c) := s in
  {| by_rows := rm; d_rows := r; d_cols := c;
     memory := map (fun o => Some (if rm then f (o / c) (o mod c) else f (o mod r) (o / r))) (seq 0 (r * c)) |}.
(** EigenMatrix(rows, cols): p_eigen_matrix(rows, cols), the memory is allocated and not initialised.
    src/SofaCaribou/Algebra/EigenMatrix.h 97 *)
Definition blank (s : bool * nat * nat) : dense :=
  let '(rm, r, c) := s in {| by_rows := rm; d_rows := r; d_cols := c; memory := repeat None (r * c) |}.

(** The vector wrapper.  src/SofaCaribou/Algebra/EigenVector.h 24-104 *)
Inductive vcall := VResize (n : nat) | VClear | VSet (i : nat) (v : R) | VAdd (i : nat) (v : R).
(** size and element.  src/SofaCaribou/Algebra/EigenVector.h 64-69 *)
Definition v_size (x : list cell) : nat := length x.
Definition v_element (x : list cell) (i : nat) : cell := nth i x None.
(** resize, clear, set, add.  src/SofaCaribou/Algebra/EigenVector.h 72-81.  The resize of Eigen leaves memory
    uninitialised (all of it when the size changes); setZero then writes every element. *)
Definition v_setZero (x : list cell) : list cell := fold_left (fun x i => modify x i (put 0%R)) (seq 0 (length x)) x.
Definition v_call (x : list cell) (c : vcall) : option (list cell) :=
  match c with
  | VResize n => Some (v_setZero (if Nat.eqb n (length x) then x else repeat None n))
  | VClear => Some (v_setZero x)
  | VSet i v => if Nat.ltb i (length x) then Some (modify x i (put v)) else None
  | VAdd i v => if Nat.ltb i (length x) then Some (modify x i (increase v)) else None
  end.
(** A vector of the user, and EigenVector(n).  src/SofaCaribou/Algebra/EigenVector.h 56 *)
Definition v_filled (n : nat) (f : nat -> R) : list cell := map (fun i => Some (f i)) (seq 0 n).
Definition v_blank (n : nat) : list cell := repeat None n.

(** Programs with matrices (or vectors) of the user and wrappers.  The template argument of the wrapper tells whether
    p_eigen_matrix is a matrix (the constructor copies) or a reference (the constructor stores a reference).
    src/SofaCaribou/Algebra/EigenMatrix.h 85-102, 164; src/SofaCaribou/Algebra/EigenVector.h 44-61, 104 *)
Section Programs.
  Context {obj op shape content : Type}.
  Context (apply : obj -> op -> option obj) (make : shape -> content -> obj) (allocate : shape -> obj).
  Inductive holder := Own (o : obj) | Reference (k : nat).
  Record world := { mine : list obj; wrappers : list holder }.
  Inductive command :=
  | Declare (s : shape) (f : content)   (* the user makes a matrix of its own *)
  | Direct (k : nat) (o : op)           (* the user changes its k-th matrix *)
  | WrapCopy (k : nat)                  (* EigenMatrix<M>(matrix k) *)
  | WrapReference (k : nat)             (* EigenMatrix<M &>(matrix k) *)
  | WrapNew (s : shape)                 (* EigenMatrix<M>(rows, cols) *)
  | Through (w : nat) (o : op).         (* a call of the w-th wrapper *)
  Definition bind {A B} (x : option A) (f : A -> option B) : option B := match x with Some a => f a | None => None end.
  Fixpoint change {A} (l : list A) (k : nat) (a : A) : list A :=
    match l, k with [], _ => [] | _ :: l, 0 => a :: l | x :: l, S k => x :: change l k a end.
  (** A call on a matrix of the user. *)
  Definition act (w : world) (k : nat) (o : op) : option world :=
    bind (nth_error (mine w) k) (fun m => bind (apply m o) (fun m =>
    Some {| mine := change (mine w) k m; wrappers := wrappers w |})).
  Definition execute (w : world) (c : command) : option world :=
    match c with
    | Declare s f => Some {| mine := mine w ++ [make s f]; wrappers := wrappers w |}
    | Direct k o => act w k o
    | WrapCopy k => bind (nth_error (mine w) k) (fun m => Some {| mine := mine w; wrappers := wrappers w ++ [Own m] |})
    | WrapReference k => bind (nth_error (mine w) k) (fun _ => Some {| mine := mine w; wrappers := wrappers w ++ [Reference k] |})
    | WrapNew s => Some {| mine := mine w; wrappers := wrappers w ++ [Own (allocate s)] |}
    | Through n o =>
        bind (nth_error (wrappers w) n) (fun h =>
        match h with
        | Own m => bind (apply m o) (fun m => Some {| mine := mine w; wrappers := change (wrappers w) n (Own m) |})
        | Reference k => act w k o
        end)
    end.
  Fixpoint perform (w : world) (p : list command) : option world :=
    match p with [] => Some w | c :: p => bind (execute w c) (fun w => perform w p) end.
  Definition nothing_yet : world := {| mine := []; wrappers := [] |}.
  (** The matrix seen through a wrapper: matrix() of the wrapper.  src/SofaCaribou/Algebra/EigenMatrix.h 151 *)
  Definition seen (w : world) (n : nat) : option obj :=
    bind (nth_error (wrappers w) n) (fun h => match h with Own m => Some m | Reference k => nth_error (mine w) k end).
End Programs.
Arguments command : clear implicits.
Arguments world : clear implicits.
Arguments holder : clear implicits.
