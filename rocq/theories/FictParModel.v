(** The subdivision of the cells of the fictitious grid as it runs: /repo/src/SofaCaribou/Topology/FictitiousGrid.cpp:145-218 and
    238-330.  The loop over the cells is parallel (OpenMP) and each of its iterations treats a queue of sub-cells.  [FictModel.subdivide] is the tree that
    is expected; here are the queue and the steps, in any interleaving. *)

From Coq Require Import ZArith Reals List Arith Bool.
From Verif Require Import GridModel GridGeoModel FictModel.
Import ListNotations.
Open Scope nat_scope.

(** A cell in memory: [Leaf None] is a cell without data and without childs, as it is created (I:312-318, C:207, C:319).  A pointer to a
    sub-cell is its path from the cell of the grid. *)
Definition memory := tree (option (cell_type * R)).
Fixpoint set_nth {A : Type} (i : nat) (f : A -> A) (l : list A) : list A :=
  match l, i with [], _ => [] | x :: l, O => f x :: l | x :: l, S i => x :: set_nth i f l end.
(** A write through a pointer. *)
Fixpoint store {A : Type} (path : list nat) (s : tree A) (t : tree A) : tree A :=
  match path with
  | [] => s
  | i :: path => match t with Leaf a => Leaf a | Node childs => Node (set_nth i (store path s) childs) end
  end.

(** An element of the queue: C:147, C:241. *)
Record job := Job { element : box; where_ : list nat; weight : R; level : nat }.
(** What one iteration of the parallel loop works on: its cell and its queue. *)
Record iteration := Iteration { cell : memory; queue : list job }.

(** C:151-157, C:244-250. *)
Definition start (e : box) : iteration := Iteration (Leaf None) [Job e [] 1%R 0].
(** One turn of the loop on the queue: C:160-216, C:253-328. *)
Definition turn (D : nat) (classify : box -> cell_type * bool) (number_of_subdivision : nat) (s : iteration) : iteration :=
  match queue s with
  | [] => s
  | Job e p w l :: q =>
      let '(type, subdivide_the_cell) := classify e in
      if (number_of_subdivision <? l + 1) || negb subdivide_the_cell
      then Iteration (store p (Leaf (Some (type, w))) (cell s)) q
      else Iteration (store p (Node (repeat (Leaf None) (2 ^ D))) (cell s))
             (q ++ map (fun i => Job (nth i (get_subcells_elements D e) (Box [] [])) (p ++ [i]) (w / 2 ^ D)%R (l + 1)) (seq 0 (2 ^ D)))
  end.

(** All the iterations; the schedule says which one does its next turn. *)
Definition all_started (g : grid) : list iteration :=
  map (fun c => start (cell_box g (cell_coordinates_of_index (subdivisions g) (Z.of_nat c)))) (seq 0 (Z.to_nat (number_of_cells (subdivisions g)))).
Definition scheduled_turn (g : grid) (classify : nat -> box -> cell_type * bool) (n : nat) (s : list iteration) (c : nat) : list iteration :=
  set_nth c (turn (length g) (classify c) n) s.
Definition run_schedule (g : grid) (classify : nat -> box -> cell_type * bool) (n : nat) (schedule : list nat) : list iteration :=
  fold_left (scheduled_turn g classify n) schedule (all_started g).
