(** The topology component: /repo/src/SofaCaribou/Topology/CaribouTopology.h and .inl.
    [P] is the type of the positions.  A Data of the component is a value with the flag isSet().  The vector of indices has an address
    (here a number), a content and a capacity: assigning more elements than the capacity moves it, otherwise its elements are
    overwritten where they are (std::vector).  The internal Mesh copies the positions; the internal Domain does not copy the indices: it keeps the
    address and the number of elements (Domain.h:210-211, called by Mesh::add_domain).
    Not modelled: the messages; the links between the Data of two components, other than the one that init() makes. *)

From Coq Require Import List Arith Bool.
Import ListNotations.

Record buffer := Buffer { address : nat; content : list (list nat); capacity : nat }.
(** Assignment of a vector. *)
Definition assign (l : list (list nat)) (b : buffer) : buffer :=
  if length l <=? capacity b then Buffer (address b) l (capacity b) else Buffer (S (address b)) l (length l).

Section Topology.
Variable P : Type.

(** p_domain: nothing, a domain of somebody else (its elements and the nodes of its mesh), or the internal one (the nodes of p_mesh, and the
    address and number of elements of the indices it refers to). *)
Inductive domain := Attached (elements : list (list nat)) (nodes : list P) | Internal (nodes : list P) (where_ : nat) (number : nat).
Record topology := Topology {
  d_position : list P; position_is_set : bool; d_indices : buffer; indices_is_set : bool; p_domain : option domain }.
Definition initial_topology : topology := Topology [] false (Buffer 0 [] 0) false None.

(** What a read gives. *)
Inductive read (A : Type) := Value (a : A) | Undefined_behaviour.
Arguments Value {A}. Arguments Undefined_behaviour {A}.

(** CaribouTopology.h:101-103. *)
Definition number_of_elements (t : topology) : nat :=
  match p_domain t with None => 0 | Some (Attached els _) => length els | Some (Internal _ _ n) => n end.
(** Domain.h: element_indices; inside the vector if it is still where it was. *)
Definition element_indices (t : topology) (e : nat) : read (list nat) :=
  match p_domain t with
  | None => Undefined_behaviour
  | Some (Attached els _) => match nth_error els e with Some l => Value l | None => Undefined_behaviour end
  | Some (Internal _ w n) =>
    if Nat.eqb w (address (d_indices t)) && (e <? n) then match nth_error (content (d_indices t)) e with Some l => Value l | None => Undefined_behaviour end
    else Undefined_behaviour
  end.
Fixpoint gather (nodes : list P) (l : list nat) : read (list P) :=
  match l with
  | [] => Value []
  | i :: l => match nth_error nodes i, gather nodes l with Some p, Value q => Value (p :: q) | _, _ => Undefined_behaviour end
  end.
(** CaribouTopology.h:87-90: the nodes of the element, from the mesh of the domain. *)
Definition element (t : topology) (e : nat) : read (list P) :=
  match p_domain t, element_indices t e with
  | Some (Attached _ nodes), Value l => gather nodes l
  | Some (Internal nodes _ _), Value l => gather nodes l
  | _, _ => Undefined_behaviour
  end.

(** The user (or the scene) sets the Data. *)
Definition set_position (l : list P) (t : topology) : topology :=
  Topology l true (d_indices t) (indices_is_set t) (p_domain t).
Definition set_indices (l : list (list nat)) (t : topology) : topology :=
  Topology (d_position t) (position_is_set t) (assign l (d_indices t)) true (p_domain t).
(** CaribouTopology.inl:25-41: the domain is kept, and its indices are copied in the Data (a write accessor sets it). *)
Definition attachDomain (els : list (list nat)) (nodes : list P) (t : topology) : topology :=
  Topology (d_position t) (position_is_set t) (assign els (d_indices t)) true (Some (Attached els nodes)).
(** CaribouTopology.inl:43-98. *)
Definition initializeFromIndices (t : topology) : topology :=
  let idx := content (d_indices t) in
  if Nat.eqb (length idx) 0 then t
  else if Nat.eqb (length (d_position t)) 0 then t
  else if 0 <? length (filter (existsb (fun i => length (d_position t) <=? i)) idx) then t
  else Topology (d_position t) (position_is_set t) (d_indices t) (indices_is_set t)
         (Some (Internal (d_position t) (address (d_indices t)) (length idx))).
(** CaribouTopology.inl:100-124: [state] is the rest position of the mechanical state found in the context. *)
Definition init (state : option (list P)) (t : topology) : topology :=
  if indices_is_set t then
    let t := match state with
             | Some x => if negb (Nat.eqb (length (content (d_indices t))) 0) && negb (position_is_set t)
                         then Topology x true (d_indices t) (indices_is_set t) (p_domain t) else t
             | None => t
             end in
    initializeFromIndices t
  else t.

Inductive event := SetPosition (l : list P) | SetIndices (l : list (list nat)) | Attach (els : list (list nat)) (nodes : list P) | Init (state : option (list P)).
Definition apply (e : event) (t : topology) : topology :=
  match e with
  | SetPosition l => set_position l t
  | SetIndices l => set_indices l t
  | Attach els nodes => attachDomain els nodes t
  | Init state => init state t
  end.
Definition run (h : list event) (t : topology) : topology := fold_left (fun t e => apply e t) h t.
End Topology.
Arguments Value {A}. Arguments Undefined_behaviour {A}.
