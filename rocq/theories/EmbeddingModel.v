(** How a barycentric mapping gets its element type, its topology and its embedding:
    /repo/src/SofaCaribou/Mapping/CaribouBarycentricMapping.inl:29-126 (init), 129-220 (apply, applyJ, applyJT) and 299-364
    (canCreate), with the instantiations of CaribouBarycentricMapping[Tetrahedron].cpp and [Hexahedron].cpp.

    From SOFA: the scene is a tree of nodes with names (a node with several parents is not modelled), the context of a component is its node;
    getFirstParent; get<T>() gives the first object of type T of the node, otherwise of its parent, and so on up to the root (SearchUp); get<T>(path) gives
    the object of type T at a path, absolute if it begins by "/" and otherwise relative to the node; a link "@path" is resolved from the node of the component
    and is empty if there is no object of its type there; the factory tries the instantiations in some order and creates the first that accepts.
    Inherit1::canCreate (sofa::core::Mapping) looks for the two mechanical states: a parameter here.
    Not modelled: the messages; paths to a node instead of an object. *)

From Coq Require Import String Ascii Reals List Arith Bool.
From Verif Require Import SetupModel.
From Verif Require GridGeoModel HashGridModel LinAlg ShapeModel BarycentricModel SparseModel MappingModel.
Import ListNotations.
Open Scope nat_scope.

(** ** The scene *)

(** An object: its name and, if it is a CaribouTopology, its element type and a number that identifies it. *)
Record object := Object { name : string; topology : option (element_type * nat) }.
Inductive tree := Node (label : string) (objects : list object) (children : list tree).
Definition label (t : tree) : string := match t with Node l _ _ => l end.
Definition objects (t : tree) : list object := match t with Node _ o _ => o end.
Definition children (t : tree) : list tree := match t with Node _ _ c => c end.
(** A context: the node, its parent, and so on up to the root. *)
Definition context : Type := list tree.

(** dynamic_cast<CaribouTopology<Element> *>. *)
Definition as_topology (e : element_type) (o : object) : option nat :=
  match topology o with Some (e', id) => if element_type_eqb e e' then Some id else None | None => None end.
Definition first_some {A B : Type} (f : A -> option B) : list A -> option B :=
  fix first_some (l : list A) := match l with [] => None | a :: l => match f a with Some b => Some b | None => first_some l end end.
(** get<CaribouTopology>() *)
Definition get (e : element_type) (c : context) : option nat := first_some (as_topology e) (flat_map objects c).

(** Names separated by slashes. *)
Fixpoint split (s : string) : list string :=
  match s with
  | EmptyString => [EmptyString]
  | String c s =>
    if Ascii.eqb c "/" then EmptyString :: split s
    else match split s with [] => [String c EmptyString] | w :: l => String c w :: l end
  end.
Fixpoint resolve (c : context) (path : list string) : option object :=
  match path with
  | [] => None
  | [n] => match c with [] => None | t :: _ => find (fun o => String.eqb (name o) n) (objects t) end
  | n :: path =>
    if String.eqb n "." then resolve c path
    else if String.eqb n ".." then match c with _ :: ((_ :: _) as up) => resolve up path | _ => None end
    else match c with
         | [] => None
         | t :: _ => match find (fun t => String.eqb (label t) n) (children t) with Some t => resolve (t :: c) path | None => None end
         end
  end.
(** getRootContext *)
Definition root (c : context) : context := match rev c with [] => [] | t :: _ => [t] end.
Definition find_path (c : context) (s : string) : option object :=
  match s with
  | String "/" s => resolve (root c) (split s)
  | _ => resolve c (split s)
  end.

(** Lines 33-45 and 342-355: in the parent, then in the node. *)
Definition search (e : element_type) (c : context) : option nat :=
  match c with
  | [] => None
  | [t] => get e [t]
  | t :: up => match get e up with Some id => Some id | None => get e c end
  end.

(** ** canCreate: lines 299-364 *)
Definition canCreate (e : element_type) (c : context) (states : bool) (arg : description) : bool :=
  if String.eqb (lower_string (template arg)) (lower_string (templateName e)) then states
  else if negb (String.eqb (template arg) "") then false
  else if negb (String.eqb (topology_attribute arg) "") then
    match find_path (root c) (substr1 (topology_attribute arg)) with
    | Some o => match as_topology e o with Some _ => states | None => false end
    | None => false
    end
  else match search e c with Some _ => states | None => false end.

(** The instantiations, and the factory that tries them in the order of the list. *)
Definition instantiations : list element_type :=
  [ElementType Hexahedron Linear; ElementType Hexahedron Quadratic; ElementType Tetrahedron Linear; ElementType Tetrahedron Quadratic].
Definition create (order : list element_type) (c : context) (states : bool) (arg : description) : option element_type :=
  find (fun e => canCreate e c states arg) order.

(** ** init *)

(** Lines 33-57: the topology that is used. *)
Definition link (e : element_type) (c : context) (attribute : string) : option nat :=
  match attribute with
  | String "@" p => match find_path c p with Some o => as_topology e o | None => None end
  | _ => None
  end.
Definition topology_used (e : element_type) (c : context) (arg : description) : option nat :=
  match link e c (topology_attribute arg) with Some id => Some id | None => search e c end.

(** The members of the component: the container with the number of the domain it points to, and p_J. *)
Record member := Member { domain_of_container : option (nat * BarycentricModel.domain * BarycentricModel.container);
                          J_rows : nat; J_cols : nat; J_entries : list SparseModel.triplet }.
Definition fresh : member := Member None 0 0 [].
(** The mapped mechanical object. *)
Record mechanical := Mechanical { position : list (list R); rest_position : list (list R) }.
Inductive outcome (A : Type) := Done (a : A) | Throws | Undefined.
Arguments Done {A}. Arguments Throws {A}. Arguments Undefined {A}.

(** Lines 60-125; [domain] is the domain of the topology with its number, [from_size] the number of nodes of the parent mechanical object; the
    result has the rest positions of the mapped object.  An exception leaves the member as it was. *)
Definition init (domain : option (nat * BarycentricModel.domain)) (from_size : nat) (to : mechanical) (m : member) : outcome (member * list (list R)) :=
  match domain with
  | None => Done (m, rest_position to)
  | Some (id, d) =>
    if Nat.eqb from_size 0 then Done (m, rest_position to)
    else if Nat.eqb (length (position to)) 0 then Done (m, rest_position to)
    else
      let rest := match rest_position to with [] => position to | _ => rest_position to end in
      match BarycentricModel.embed d rest with
      | None => Throws
      | Some c =>
        match BarycentricModel.outside_nodes c with
        | _ :: _ => Done (Member (Some (id, d, c)) (J_rows m) (J_cols m) (J_entries m), rest)
        | [] =>
          let entries := MappingModel.mapping_entries d c in
          if forallb (fun t => (fst (fst t) <? length (position to)) && (snd (fst t) <? from_size)) entries
          then Done (Member (Some (id, d, c)) (length (position to)) from_size entries, rest)
          else Undefined
        end
      end
  end.

(** Lines 129-188 (apply and applyJ); [alive] is the domain of the topology at that time: a container that points to another one refers to freed memory. *)
Definition apply (alive : option (nat * BarycentricModel.domain)) (m : member) (nb_cols : nat) (values old : list (list R)) : outcome (list (list R)) :=
  match domain_of_container m with
  | None => Done old
  | Some (id, d, c) =>
    match BarycentricModel.outside_nodes c with
    | _ :: _ => Done old
    | [] =>
      if match alive with Some (id', _) => Nat.eqb id id' | None => false end
      then match BarycentricModel.interpolate_field d c nb_cols values old with Some x => Done x | None => Throws end
      else Undefined
    end
  end.
(** Lines 191-220: forces += p_J^T * mapped_forces. *)
Definition applyJT (m : member) (nb_cols : nat) (mapped_forces forces : list (list R)) : list (list R) :=
  match domain_of_container m with
  | None => forces
  | Some (_, d, c) => MappingModel.applyJT {| MappingModel.m_domain := d; MappingModel.m_container := c; MappingModel.J_rows := J_rows m;
                                              MappingModel.J_cols := J_cols m; MappingModel.J_entries := J_entries m |} nb_cols mapped_forces forces
  end.

(** ** Histories *)

(** The topology makes a new domain each time it is initialised with valid indices (CaribouTopology.inl:90-97: p_mesh.reset destroys the mesh and its
    domains); the mapping is initialised with the mechanical objects of that time. *)
Inductive event := TopologyInit (d : BarycentricModel.domain) | MappingInit (from_size : nat) (to : mechanical).
Record world := World { current : option (nat * BarycentricModel.domain); next : nat; component : member }.
Definition start : world := World None 0 fresh.
(** None is an undefined behaviour; an exception leaves the members as they were. *)
Definition step (w : world) (e : event) : option world :=
  match e with
  | TopologyInit d => Some (World (Some (next w, d)) (S (next w)) (component w))
  | MappingInit n to =>
    match init (current w) n to (component w) with
    | Done (m, _) => Some (World (current w) (next w) m)
    | Throws => Some w
    | Undefined => None
    end
  end.
Definition run (h : list event) : option world := fold_left (fun w e => match w with Some w => step w e | None => None end) h (Some start).
