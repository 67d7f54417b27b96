(** Independent specification vocabulary for regular grids: integer boxes, lattice
    corners, unit edges and unit squares of the lattice.  Nothing here refers to the
    code's index formulas. *)

From Coq Require Import ZArith List.
Import ListNotations.
Open Scope Z_scope.

(** [f] and [g] are mutually inverse bijections between the sets [P] and [Q]. *)
Definition mutually_inverse {A B : Type} (P : A -> Prop) (Q : B -> Prop)
           (f : A -> B) (g : B -> A) : Prop :=
  (forall a, P a -> Q (f a) /\ g (f a) = a) /\
  (forall b, Q b -> P (g b) /\ f (g b) = b).

(** [0 <= z < n] *)
Definition below (n z : Z) : Prop := 0 <= z < n.

(** Integer boxes [0,n) x [0,m) (x [0,p)). *)
Definition box2 (n m : Z) (c : Z * Z) : Prop :=
  let '(i, j) := c in below n i /\ below m j.
Definition box3 (n m p : Z) (c : Z * Z * Z) : Prop :=
  let '(i, j, k) := c in below n i /\ below m j /\ below p k.

(** The corners of the unit square / cube, counter-clockwise, lower slice first. *)
Definition corner2 : list (Z * Z) := [(0,0); (1,0); (1,1); (0,1)].
Definition corner3 : list (Z * Z * Z) :=
  [(0,0,0); (1,0,0); (1,1,0); (0,1,0); (0,0,1); (1,0,1); (1,1,1); (0,1,1)].

Definition shift2 (a b : Z * Z) : Z * Z := (fst a + fst b, snd a + snd b).
Definition shift3 (a b : Z * Z * Z) : Z * Z * Z :=
  (fst (fst a) + fst (fst b), snd (fst a) + snd (fst b), snd a + snd b).

(** Unit lattice edges: two nodes of the lattice one step apart along a positive axis.
    A grid with [nx] x [ny] cells has nodes in [box2 (nx+1) (ny+1)]. *)
Definition unit_edge2 (nx ny : Z) (a b : Z * Z) : Prop :=
  box2 (nx + 1) (ny + 1) a /\ box2 (nx + 1) (ny + 1) b /\
  (b = shift2 a (1, 0) \/ b = shift2 a (0, 1)).

Definition unit_edge3 (nx ny nz : Z) (a b : Z * Z * Z) : Prop :=
  box3 (nx + 1) (ny + 1) (nz + 1) a /\ box3 (nx + 1) (ny + 1) (nz + 1) b /\
  (b = shift3 a (1, 0, 0) \/ b = shift3 a (0, 1, 0) \/ b = shift3 a (0, 0, 1)).

(** Unit lattice squares, as the cyclic list of their four corners
    [a, a+u, a+u+v, a+v] with [u], [v] two distinct axes in increasing order. *)
Definition unit_square3 (nx ny nz : Z) (sq : list (Z * Z * Z)) : Prop :=
  exists a u v,
    (  (u = (1,0,0) /\ v = (0,1,0))
    \/ (u = (1,0,0) /\ v = (0,0,1))
    \/ (u = (0,1,0) /\ v = (0,0,1))) /\
    sq = [a; shift3 a u; shift3 (shift3 a u) v; shift3 a v] /\
    Forall (box3 (nx + 1) (ny + 1) (nz + 1)) sq.

(** [enum] enumerates, without repetition, exactly the items satisfying [Item] with the
    indices [0 .. n-1], up to the encoding [enc]. *)
Definition enumerates {A B : Type} (n : Z) (enum : Z -> B) (enc : A -> B) (Item : A -> Prop) : Prop :=
  (forall i, below n i -> exists a, Item a /\ enum i = enc a) /\
  (forall a, Item a -> exists i, below n i /\ enum i = enc a) /\
  (forall i j, below n i -> below n j -> enum i = enum j -> i = j).
