(** The traction force field: /repo/src/SofaCaribou/Forcefield/TractionForcefield.inl.
    Simplifications: exact reals; the counters are unbounded naturals; the element types are those of
    TractionForcefield[Triangle].cpp and [Quad].cpp. *)

From Coq Require Import Reals List Arith Bool.
From Flocq Require Import Core.Raux.
From Verif Require Import GridGeoModel ShapeModel LinAlg RectModel BarycentricModel.
Import ListNotations.
Open Scope R_scope.

(** Data traction, slope, number_of_steps_before_increment (lines 21-35), and the domain of the topology with the rest
    positions. *)
Record config := { surface : domain; traction : list R; slope : R; steps_before_increment : nat }.

(** Data nodal_forces, total_load and the private members (TractionForcefield.h:125-132). *)
Record state := { nodal_forces : list (list R); total_load : R; is_constant : bool;
                  current_traction : list R; steps_since_last_increment : nat }.

(** Lines 257-263 *)
Definition area_factor (d : domain) (nodes : list (list R)) (xi : list R) : R :=
  let J := jacobian (dim d) (kind d) nodes xi in
  if (Nat.eqb (dim d) 3 && Nat.eqb (CanonicalDimension (kind d)) 2)%bool
  then Rabs (norm (vcross (column J 0) (column J 1)))
  else Rabs (det J).

(** Lines 247-276: (weight, jacobian determinant, N) of each Gauss node. *)
Definition gauss_nodes_of (d : domain) (nodes : list (list R)) : list (R * R * list R) :=
  map (fun g => (snd g, area_factor d nodes (fst g), L (kind d) (fst g))) (gauss_nodes (kind d)).

(** nodal_forces[i] += x; None is a write out of the vector (undefined behaviour). *)
Fixpoint add_at (f : list (list R)) (i : nat) (x : list R) : option (list (list R)) :=
  match f, i with
  | [], _ => None
  | y :: f, O => Some (vadd y x :: f)
  | y :: f, S i => option_map (cons y) (add_at f i x)
  end.

(** Lines 146-178: the sequence of (node, F * N[i]) that are added, in this order. *)
Definition contributions (d : domain) (t : list R) : list (nat * list R) :=
  flat_map (fun node_indices =>
    flat_map (fun g : R * R * list R =>
      let '(w, detJ, N) := g in
      let F := map (fun x => x * w * detJ) t in
      map2 (fun node n => (node, map (fun x => x * n) F)) node_indices N)
      (gauss_nodes_of d (nodes_of_element d node_indices))) (connectivity d).
Definition add_all (f : list (list R)) (l : list (nat * list R)) : option (list (list R)) :=
  fold_left (fun f p => match f with Some f => add_at f (fst p) (snd p) | None => None end) l (Some f).

(** Lines 134-181 *)
Definition increment_load (c : config) (s : state) (t : list R) : option state :=
  let l := contributions (surface c) t in
  match add_all (nodal_forces s) l with
  | None => None
  | Some f =>
      let load := fold_left (fun load p => vadd load (snd p)) l (repeat 0 (dim (surface c))) in
      Some {| nodal_forces := f; total_load := total_load s + norm load; is_constant := is_constant s;
              current_traction := current_traction s; steps_since_last_increment := steps_since_last_increment s |}
  end.

(** Lines 50-73 on a new object: the members are value initialised, nodal_forces is resized with zero vectors. *)
Definition init (c : config) : option state :=
  let constant := (Rlt_bool (- EPSILON) (slope c) && Rlt_bool (slope c) EPSILON)%bool in
  let s := {| nodal_forces := repeat (repeat 0 (dim (surface c))) (length (positions (surface c)));
              total_load := 0; is_constant := constant; current_traction := repeat 0 (dim (surface c));
              steps_since_last_increment := steps_before_increment c |} in
  if constant then increment_load c s (traction c) else Some s.

(** Lines 76-86 *)
Definition reset (c : config) (s : state) : state :=
  {| nodal_forces := []; total_load := 0; is_constant := is_constant s;
     current_traction := repeat 0 (dim (surface c)); steps_since_last_increment := steps_before_increment c |}.

(** Lines 89-131.  [begin] tells whether the event is an AnimateBeginEvent. *)
Definition handleEvent (c : config) (s : state) (begin : bool) : option state :=
  if negb begin then Some s
  else if is_constant s then Some s
  else if Rle_bool (norm (traction c)) (norm (current_traction s)) then Some s
  else
    let counter := S (steps_since_last_increment s) in
    if Nat.ltb counter (steps_before_increment c) then
      Some {| nodal_forces := nodal_forces s; total_load := total_load s; is_constant := is_constant s;
              current_traction := current_traction s; steps_since_last_increment := counter |}
    else
      let increment := map (fun x => x * slope c) (traction c) in
      let traction_to_apply := vadd (current_traction s) increment in
      let increment := if Rlt_bool (norm (traction c)) (norm traction_to_apply)
                       then vminus (traction c) (current_traction s) else increment in
      increment_load c {| nodal_forces := nodal_forces s; total_load := total_load s; is_constant := is_constant s;
                          current_traction := vadd (current_traction s) increment; steps_since_last_increment := 0 |}
                     increment.

(** A sequence of events after init. *)
Definition run_events (c : config) (events : list bool) : option state :=
  fold_left (fun s e => match s with Some s => handleEvent c s e | None => None end) events (init c).

(** Lines 184-198: f[i] += nodal_forces[i] for every i; None is a read out of nodal_forces. *)
Fixpoint add_vectors (f g : list (list R)) : option (list (list R)) :=
  match f, g with
  | [], _ => Some []
  | x :: f, y :: g => option_map (cons (vadd x y)) (add_vectors f g)
  | _, [] => None
  end.
Definition addForce (s : state) (f : list (list R)) : option (list (list R)) := add_vectors f (nodal_forces s).
