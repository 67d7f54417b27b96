(** How a force field gets its element type and its topology: /repo/src/SofaCaribou/Forcefield/CaribouForcefield.inl:31-103 (init) and 134-195
    (canCreate), with the specialisations of CaribouForcefield[Tetrahedron|Hexahedron|Triangle|Quad].cpp and of the template names in
    /repo/src/SofaCaribou/Topology/CaribouTopology[...].cpp.

    From SOFA: the classes of its topology containers (a TetrahedronSetTopologyContainer is a TriangleSetTopologyContainer, a
    HexahedronSetTopologyContainer is a QuadSetTopologyContainer); Data::setParent of an existing Data copies its value and marks it as set, and does nothing for a
    null pointer; context->get(path) finds an object from its path; a message of level info is evaluated only if printLog is on; ForceField::canCreate
    (Inherit1) accepts when the context has a mechanical state of the dimension of the element.
    Not modelled: the messages; later changes of the linked Data. *)

From Coq Require Import String Ascii List Arith NArith Bool.
From Verif Require Import TopologyModel.
Import ListNotations.
Open Scope nat_scope.

(** The twelve instantiations of the component. *)
Inductive shape := Triangle_2D | Triangle_3D | Quad_2D | Quad_3D | Tetrahedron | Hexahedron.
Inductive order := Linear | Quadratic.
Record element_type := ElementType { shape_of : shape; order_of : order }.

Definition dimension (e : element_type) : nat :=
  match shape_of e with Triangle_2D | Quad_2D => 2 | _ => 3 end.

(** CaribouTopology[Triangle].cpp:17-37, [Quad].cpp, [Tetrahedron].cpp:16-27, [Hexahedron].cpp (templateName) *)
Definition templateName (e : element_type) : string :=
  match shape_of e, order_of e with
  | Triangle_2D, Linear => "Triangle_2D" | Triangle_2D, Quadratic => "Triangle6_2D"
  | Triangle_3D, Linear => "Triangle" | Triangle_3D, Quadratic => "Triangle6"
  | Quad_2D, Linear => "Quad_2D" | Quad_2D, Quadratic => "Quad8_2D"
  | Quad_3D, Linear => "Quad" | Quad_3D, Quadratic => "Quad8"
  | Tetrahedron, Linear => "Tetrahedron" | Tetrahedron, Quadratic => "Tetrahedron10"
  | Hexahedron, Linear => "Hexahedron" | Hexahedron, Quadratic => "Hexahedron20"
  end%string.

(** SOFA's containers; [OtherMesh] is any other BaseMeshTopology (MeshTopology, a grid). *)
Inductive mesh_class := PointSet | EdgeSet | TriangleSet | QuadSet | TetrahedronSet | HexahedronSet | OtherMesh.

(** mesh_is_compatible: CaribouForcefield[Tetrahedron].cpp:27-31, 61-64, [Hexahedron].cpp:27-32, 65-69, [Triangle].cpp and [Quad].cpp: a
    dynamic_cast, and false for the quadratic elements. *)
Definition mesh_is_compatible (e : element_type) (c : mesh_class) : bool :=
  match order_of e with
  | Quadratic => false
  | Linear =>
    match shape_of e, c with
    | Tetrahedron, TetrahedronSet => true
    | Hexahedron, HexahedronSet => true
    | (Triangle_2D | Triangle_3D), (TriangleSet | TetrahedronSet) => true
    | (Quad_2D | Quad_3D), (QuadSet | HexahedronSet) => true
    | _, _ => false
    end
  end.

(** The Data of a mesh: "triangles", "quads", "tetrahedra", "hexahedra". *)
Inductive data_name := Triangles | Quads | Tetrahedra | Hexahedra.
Record mesh := Mesh { class : mesh_class; findData : data_name -> option (list (list nat)) }.

(** get_indices_from: CaribouForcefield[Tetrahedron].cpp:21-24, 54-58 and the same in the other files. *)
Definition get_indices_from (e : element_type) (m : mesh) : option (list (list nat)) :=
  match order_of e with
  | Quadratic => None
  | Linear => findData m (match shape_of e with
                          | Tetrahedron => Tetrahedra | Hexahedron => Hexahedra
                          | Triangle_2D | Triangle_3D => Triangles | Quad_2D | Quad_3D => Quads end)
  end.

Section Setup.
Variable P : Type.

(** An object of the scene: its path, and what it is. *)
Inductive kind := CaribouTopology (e : element_type) (t : topology P) | SofaMesh (m : mesh) | OtherObject.
Record object := Object { path : string; kind_of : kind }.

Definition element_type_eqb (a b : element_type) : bool :=
  match shape_of a, shape_of b with
  | Triangle_2D, Triangle_2D | Triangle_3D, Triangle_3D | Quad_2D, Quad_2D | Quad_3D, Quad_3D
  | Tetrahedron, Tetrahedron | Hexahedron, Hexahedron => true
  | _, _ => false
  end &&
  match order_of a, order_of b with Linear, Linear | Quadratic, Quadratic => true | _, _ => false end.

(** dynamic_cast<CaribouTopology<Element> *> and dynamic_cast<BaseMeshTopology *>. *)
Definition as_caribou (e : element_type) (o : object) : option (topology P) :=
  match kind_of o with CaribouTopology e' t => if element_type_eqb e e' then Some t else None | _ => None end.
Definition as_mesh (o : object) : option mesh :=
  match kind_of o with SofaMesh m => Some m | _ => None end.

(** The tests of I:163, I:173. *)
Definition usable (e : element_type) (o : object) : bool :=
  match as_caribou e o, as_mesh o with
  | Some _, _ => true
  | None, Some m => mesh_is_compatible e (class m)
  | None, None => false
  end.

(** *** canCreate *)

(** std::tolower on the characters of the "C" locale. *)
Definition tolower (c : ascii) : ascii :=
  let n := N_of_ascii c in
  if ((65 <=? n)%N && (n <=? 90)%N) then ascii_of_N (n + 32) else c.
Fixpoint lower_string (s : string) : string :=
  match s with EmptyString => EmptyString | String c s => String (tolower c) (lower_string s) end.

(** std::string::substr(1). *)
Definition substr1 (s : string) : string := match s with EmptyString => EmptyString | String _ s => s end.

(** The attributes "template" and "topology" of the description (empty if absent). *)
Record description := Description { template : string; topology_attribute : string }.

(** The context: its objects, all the objects that can be found by their path, the dimension of its mechanical state if it has one. *)
Record context := Context { local_objects : list object; find_path : string -> option object; state_dimension : option nat }.

Definition inherited_canCreate (e : element_type) (c : context) : bool :=
  match state_dimension c with Some d => Nat.eqb d (dimension e) | None => false end.

(** CaribouForcefield.inl:134-195; the result is the description with its "topology" attribute as it is left, or [None] for a refusal. *)
Definition canCreate (e : element_type) (c : context) (arg : description) : option description :=
  let accept (d : description) := if inherited_canCreate e c then Some d else None in
  if String.eqb (lower_string (template arg)) (lower_string (templateName e)) then accept arg
  else if negb (String.eqb (template arg) "") then None
  else if negb (String.eqb (topology_attribute arg) "") then
    match find_path c (substr1 (topology_attribute arg)) with
    | Some o => if usable e o then accept arg else None
    | None => None
    end
  else
    match find (usable e) (local_objects c) with
    | None => None
    | Some o => accept (Description (template arg) (String "@" (path o)))
    end.

(** *** init *)

(** The mechanical state: its positions and its rest positions at that time. *)
Record mechanical_state := MechanicalState { position : list P; rest_position : list P }.

(** The component after init: d_topology_container and p_topology; a null pointer dereferenced is [Crash]. *)
Record forcefield := Forcefield { d_topology_container : option object; p_topology : option (topology P) }.
Inductive init_result := Initialised (f : forcefield) | Crash.

(** CaribouForcefield.inl:89-95: a new CaribouTopology fed by the Data of the mesh and by the "position" of the mechanical state. *)
Definition topology_from_mesh (e : element_type) (m : mesh) (s : mechanical_state) : topology P :=
  let t := initial_topology P in
  let t := match get_indices_from e m with Some idx => set_indices P idx t | None => t end in
  init P None (set_position P (position s) t).

(** CaribouForcefield.inl:85-102. *)
Definition build_topology (e : element_type) (s : mechanical_state) (o : object) : option (topology P) :=
  match as_mesh o with
  | Some m => Some (topology_from_mesh e m s)
  | None => as_caribou e o
  end.

(** CaribouForcefield.inl:31-103; [link] is the object designated by the "topology" attribute. *)
Definition init_forcefield (e : element_type) (printLog : bool) (s : option mechanical_state) (local : list object) (link : option object)
  : init_result :=
  match s with
  | None => Initialised (Forcefield link None)
  | Some s =>
    match link with
    | Some o => Initialised (Forcefield (Some o) (build_topology e s o))
    | None =>
      let caribou := filter (fun o => match as_caribou e o with Some _ => true | None => false end) local in
      let sofa := filter (fun o => match as_mesh o with Some m => mesh_is_compatible e (class m) | None => false end) local in
      match caribou, sofa with
      | [], [] => Initialised (Forcefield None None)
      | _, _ =>
        if 1 <? length caribou + length sofa then (if printLog then Crash else Initialised (Forcefield None None))
        else
          let o := match caribou, sofa with o :: _, _ => Some o | [], o :: _ => Some o | [], [] => None end in
          Initialised (Forcefield o (match o with Some o => build_topology e s o | None => None end))
      end
    end
  end.

(** CaribouForcefield.h:87-90. *)
Definition number_of_elements_of (f : forcefield) : nat :=
  match p_topology f with Some t => number_of_elements P t | None => 0 end.

(** HyperelasticForcefield.inl:42-55: the material of the link, otherwise the only one of the context. *)
Definition find_material {M : Type} (link : option M) (materials : list M) : option M :=
  match link with
  | Some m => Some m
  | None => match materials with [] => None | [m] => Some m | _ => None end
  end.

(** HyperelasticForcefield.inl:35-61 as far as the topology, the material and the mechanical state are concerned: assemble_stiffness() reads the mechanical state without any
    test (I:391-394). *)
Definition init_hyperelastic {M : Type} (e : element_type) (printLog : bool) (s : option mechanical_state) (local : list object) (link : option object)
  (material : option M) (materials : list M) : option (forcefield * option M) :=
  match init_forcefield e printLog s local link with
  | Crash => None
  | Initialised f =>
    match s with
    | None => None
    | Some _ => Some (f, find_material material materials)
    end
  end.

End Setup.
