(** Vocabulary for C105: the same loaded surface described by another mesh or in another frame. *)

From Coq Require Import Reals List Arith Permutation.
From Verif Require Import GridGeoModel ShapeModel LinAlg RectModel BarycentricModel MappingSpec TractionModel TractionSpec NumberingSpec.
Import ListNotations.
Open Scope R_scope.

(** A surface that a force field can be made for: Triangle and Quad, in the plane or in space, every position with its
    coordinates. *)
Definition plate (d : domain) : Prop :=
  (kind d = Triangle_Linear \/ kind d = Triangle_Quadratic \/ kind d = Quad_Linear \/ kind d = Quad_Quadratic) /\
  (dim d = 2%nat \/ dim d = 3%nat) /\ Forall (fun p => length p = dim d) (positions d).

(** ** Another listing of the nodes of an element.
    Generators of the 6 symmetries of the triangle and of the 8 symmetries of the square (mirrors included). *)

(** (1 - u - v, v) and (1 - u - v, u) *)
Definition swap_of_triangle : list (list R) := [[-1; -1]; [0; 1]].
Definition cycle_of_triangle : list (list R) := [[-1; -1]; [1; 0]].
(** (-v, u) and (-u, v) *)
Definition quarter_turn : list (list R) := [[0; -1]; [1; 0]].
Definition mirror : list (list R) := [[-1; 0]; [0; 1]].

Definition surface_symmetries (e : element) : list symmetry :=
  match e with
  | Triangle_Linear =>
      [ {| order := [1; 0; 2]%nat; turn := swap_of_triangle; shift := [1; 0] |};
        {| order := [1; 2; 0]%nat; turn := cycle_of_triangle; shift := [1; 0] |} ]
  | Triangle_Quadratic =>
      [ {| order := [1; 0; 2; 3; 5; 4]%nat; turn := swap_of_triangle; shift := [1; 0] |};
        {| order := [1; 2; 0; 4; 5; 3]%nat; turn := cycle_of_triangle; shift := [1; 0] |} ]
  | Quad_Linear =>
      [ {| order := [1; 2; 3; 0]%nat; turn := quarter_turn; shift := [0; 0] |};
        {| order := [1; 0; 3; 2]%nat; turn := mirror; shift := [0; 0] |} ]
  | Quad_Quadratic =>
      [ {| order := [1; 2; 3; 0; 5; 6; 7; 4]%nat; turn := quarter_turn; shift := [0; 0] |};
        {| order := [1; 0; 3; 2; 4; 7; 6; 5]%nat; turn := mirror; shift := [0; 0] |} ]
  | _ => []
  end.

(** The same element, its nodes listed in another order allowed by the symmetries of the reference element. *)
Inductive relisted_side (e : element) (row : list nat) : list nat -> Prop :=
  | side_as_it_is : relisted_side e row row
  | side_one_more : forall row' s, In s (surface_symmetries e) -> relisted_side e row row' ->
      relisted_side e row (map (fun a => nth a row' 0%nat) (order s)).

(** The same nodes and the same elements, in another order and with their nodes listed otherwise. *)
Definition same_surface (d d' : domain) : Prop :=
  dim d' = dim d /\ kind d' = kind d /\ positions d' = positions d /\
  exists rows, Forall2 (relisted_side (kind d)) (connectivity d) rows /\ Permutation rows (connectivity d').

(** The same Data with another surface. *)
Definition on (d : domain) (c : config) : config :=
  {| surface := d; traction := traction c; slope := slope c; steps_before_increment := steps_before_increment c |}.

(** ** Another frame: a matrix that keeps the lengths (a rotation or a mirror), and a translation. *)
Definition isometry (D : nat) (Q : list (list R)) : Prop :=
  length Q = D /\ Forall (fun row => length row = D) Q /\ forall v, length v = D -> norm (matvec Q v) = norm v.
Definition moved_mesh (Q : list (list R)) (b : list R) (d : domain) : domain :=
  {| dim := dim d; kind := kind d; positions := map (fun p => vadd (matvec Q p) b) (positions d); connectivity := connectivity d |}.
Definition in_frame (Q : list (list R)) (b : list R) (c : config) : config :=
  {| surface := moved_mesh Q b (surface c); traction := matvec Q (traction c); slope := slope c; steps_before_increment := steps_before_increment c |}.

(** The state with its vectors turned, and the state with its nodal vectors in the order of the new numbers. *)
Definition turned_state (Q : list (list R)) (s : state) : state :=
  {| nodal_forces := map (matvec Q) (nodal_forces s); total_load := total_load s; is_constant := is_constant s;
     current_traction := matvec Q (current_traction s); steps_since_last_increment := steps_since_last_increment s |}.
Definition renumbered_state (N : nat) (t : nat -> nat) (s : state) : state :=
  {| nodal_forces := renumbered N t (nodal_forces s); total_load := total_load s; is_constant := is_constant s;
     current_traction := current_traction s; steps_since_last_increment := steps_since_last_increment s |}.

(** ** A part of a surface: some of its elements. *)
Definition part (rows : list (list nat)) (d : domain) : domain :=
  {| dim := dim d; kind := kind d; positions := positions d; connectivity := rows |}.
(** The state of the whole, from those of two parts. *)
Definition joined (s1 s2 : state) : state :=
  {| nodal_forces := map2 vadd (nodal_forces s1) (nodal_forces s2); total_load := total_load s1 + total_load s2; is_constant := is_constant s1;
     current_traction := current_traction s1; steps_since_last_increment := steps_since_last_increment s1 |}.
