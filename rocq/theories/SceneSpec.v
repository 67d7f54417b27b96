(** Vocabulary for the linear system of a scene (C89). *)

From Coq Require Import Reals List Arith Bool.
From Verif Require Import GridGeoModel ShapeModel EigenMatrixModel EigenMatrixSpec SceneModel.
Import ListNotations.
Open Scope nat_scope.

(** Indices are within the states; a mapped state comes after its input. *)
Definition well_formed (sc : scene) : Prop :=
  (forall s p m J, s < length (states sc) -> mapping (state_at sc s) = Some (p, m, J) -> p < s) /\
  (forall s entries, In (s, entries) (force_fields sc) -> s < length (states sc) /\
     forall i j v, In (i, j, v) entries -> i < size sc s /\ j < size sc s) /\
  (forall s groups, In (s, groups) (constraints sc) -> s < length (states sc) /\
     forall g d, In g groups -> In d g -> d < size sc s).

(** The states whose force fields are part of the system: those that are not mapped, and those mapped with their matrices
    from such a state. *)
Inductive counted (sc : scene) : nat -> Prop :=
| counted_free s : s < length (states sc) -> mapping (state_at sc s) = None -> counted sc s
| counted_mapped s p J : s < length (states sc) -> mapping (state_at sc s) = Some (p, true, J) -> counted sc p -> counted sc s.

Definition is_fixed (sc : scene) (s d : nat) : Prop := exists groups g, In (s, groups) (constraints sc) /\ In g groups /\ In d g.
(** Some force field on s has an entry at (i, j). *)
Definition touched (sc : scene) (s i j : nat) : Prop := exists entries v, In (s, entries) (force_fields sc) /\ In (i, j, v) entries.

Definition sum (n : nat) (f : nat -> R) : R := Rsum (map f (seq 0 n)).

(** A motion of the scene: one displacement for each unknown of each state; the mapped states follow their inputs and the
    fixed unknowns do not move. *)
Definition admissible (sc : scene) (w : nat -> nat -> R) : Prop :=
  (forall s p J i, counted sc s -> mapping (state_at sc s) = Some (p, true, J) -> i < size sc s ->
     w s i = sum (size sc p) (fun j => (J i j * w p j)%R)) /\
  (forall s d, counted sc s -> is_fixed sc s d -> w s d = 0%R).

(** Virtual work of the force fields of the counted states (given by a Boolean test) for two motions. *)
Definition work (sc : scene) (inside : nat -> bool) (w z : nat -> nat -> R) : R :=
  Rsum (map (fun f => if inside (fst f) then Rsum (map (fun e => (w (fst f) (fst (fst e)) * snd e * z (fst f) (snd (fst e)))%R) (snd f)) else 0%R)
    (force_fields sc)).

(** The product of two motions through a matrix of the global system. *)
Definition product (n : nat) (A : nat -> nat -> R) (a b : nat -> R) : R := sum n (fun i => sum n (fun j => (a i * A i j * b j)%R)).
(** [x] solves the system. *)
Definition solves (n : nat) (A : nat -> nat -> R) (x b : list R) : Prop :=
  length x = n /\ forall i, i < n -> sum n (fun j => (A i j * nth j x 0)%R) = nth i b 0%R.

(** Every fixed unknown of a state that is not mapped has an entry on its diagonal (a mass or a stiffness). *)
Definition anchored (sc : scene) : Prop := forall s d, is_free sc s = true -> is_fixed sc s d -> touched sc s d d.
(** The entries come with their transposes. *)
Definition symmetric_entries (sc : scene) : Prop := forall s i j, is_free sc s = true -> touched sc s i j -> touched sc s j i.

(** The entries of the matrix that a solver holds after it assembled the scene: in either storage order, after any legal use
    of this matrix before, and whatever Eigen leaves in its free room. *)
Definition holds_system (sc : scene) (symmetric : bool) (n : nat) (A : nat -> nat -> R) : Prop :=
  exists rm r c (before h : list (call * (nat -> leftover))),
    legal rm (r, c) (map fst before) /\ map fst h = assemble sc symmetric /\
    let w := run (new_wrapper rm r c) (before ++ h) in rowSize w = n /\ colSize w = n /\ A = element w.
