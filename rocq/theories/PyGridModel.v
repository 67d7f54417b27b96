(** The classes Grid2D, Grid3D and the hash grids of the Python module Caribou.Topology: the methods that a class defines
    and those it hides, overload resolution of pybind11, conversion of the arguments and of the answers.

    Source: /repo/src/Caribou/Python/Topology/Grid.cpp and HashGrid.cpp.

    Simplifications (whole file): positional arguments only; real numbers instead of doubles (no NaN, no infinity); arrays
    with one axis; numpy scalars and keyword arguments are not modelled.  The functions of C++ behind the methods are those
    of GridGeoModel and, for the integers, of GridMachModel. *)

From Coq Require Import String ZArith Reals List Arith Bool.
From Flocq Require Import Core.Raux.
From Verif Require Import GridModel GridGeoModel GridMachModel HashGridModel.
Import ListNotations.
Open Scope nat_scope.

(** ** Values of Python *)
(** Types of the entries of a numpy array; [OtherNumbers]: any other type of numbers (32 bits, ...). *)
Inductive dtype := Float64 | Int64 | UInt64 | OtherNumbers.
(** The C++ classes that matter here: the elements of the hash grids (HashGrid.cpp 31-36) and the cells of the grids
    (Topology/Grid/Grid.h 77, 200). *)
Inductive cpp_class :=
| Tetrahedron4 | Tetrahedron10 | Hexahedron8 | Hexahedron20 | RectangularHexahedron8 | RectangularHexahedron20 | RectangularQuad4.
Inductive value :=
| VInt (z : Z) | VFloat (x : R) | VBool (b : bool) | VNone
| VArray (d : dtype) (l : list R)                       (* numpy array with one axis *)
| VList (l : list R)                                    (* list or tuple of numbers *)
| VSet (l : list Z)
| VElement (c : cpp_class) (nodes : list (list R))      (* an element of Caribou.Geometry *)
| VClass (c : cpp_class)                                (* the class of these elements, e.g. Caribou.Geometry.TetrahedronLinear *)
| VOther.                                               (* anything else: strings, functions, arrays with two axes... *)

(** Python/Geometry/*.cpp: no file binds RectangularQuad; the others are known once Caribou.Geometry has been imported. *)
Definition registered (geometry_imported : bool) (c : cpp_class) : bool :=
  match c with RectangularQuad4 => false | _ => geometry_imported end.

(** ** Arguments *)
(** Types of the parameters: Eigen::Matrix<T, D, 1> with T = double, long long, unsigned long long (BaseGrid.h 41-52);
    long long (NodeIndex, CellIndex); unsigned long long (EdgeIndex, FaceIndex); double; bool; an element; py::object. *)
Inductive param :=
| PWorld (D : nat) | PCoordinates (D : nat) | PSubdivisions (D : nat) | PIndex | PUnsigned | PFloat | PBool
| PElement (c : cpp_class) | PObject.
Inductive loaded :=
| LWorld (p : list R) | LCoordinates (c : list Z) | LSubdivisions (n : list Z) | LIndex (i : Z) | LUnsigned (i : Z) | LFloat (x : R)
| LBool (b : bool) | LElement (nodes : list (list R)) | LObject (v : value).

Definition same_dtype (a b : dtype) : bool :=
  match a, b with Float64, Float64 | Int64, Int64 | UInt64, UInt64 => true | _, _ => false end.
(** The entries of a vector.  Without conversion only arrays of the type of the parameter are loaded; with it everything numpy
    makes an array of (pybind11/eigen.h, type_caster<Type>::load). *)
Definition entries (convert : bool) (wanted : dtype) (D : nat) (v : value) : option (list R) :=
  match v with
  | VArray d l => if convert || same_dtype d wanted then if length l =? D then Some l else None else None
  | VList l => if convert then if length l =? D then Some l else None else None
  | _ => None
  end.
(** numpy casts the entries without any check: the fraction of a floating-point number is dropped, integers wrap.  (The
    conversion of a floating-point number out of range is left to the machine by C: the wrapped value here.) *)
Definition to_int64 (x : R) : Z := s64 (Ztrunc x).
Definition to_uint64 (x : R) : Z := u64 (Ztrunc x).
(** The integer that an object stands for (pybind11/cast.h): Python integers and booleans, and with conversion the numpy arrays
    with a single entry; never floating-point numbers. *)
Definition as_integer (convert : bool) (v : value) : option Z :=
  match v with
  | VInt z => Some z
  | VBool b => Some (if b then 1 else 0)%Z
  | VArray _ [x] => if convert then Some (Ztrunc x) else None
  | _ => None
  end.
Definition int64_range (z : Z) : bool := ((- 2 ^ 63 <=? z) && (z <? 2 ^ 63))%Z.
Definition uint64_range (z : Z) : bool := ((0 <=? z) && (z <? 2 ^ 64))%Z.
Definition within (range : Z -> bool) (z : option Z) : option Z :=
  match z with Some z => if range z then Some z else None | None => None end.
Definition nonzero (x : R) : bool := if Req_EM_T x 0 then false else true.
(** The type casters of pybind11 (not part of the repository): None when the object is refused. *)
Definition load (convert : bool) (p : param) (v : value) : option loaded :=
  match p with
  | PWorld D => option_map LWorld (entries convert Float64 D v)
  | PCoordinates D => option_map (fun l => LCoordinates (map to_int64 l)) (entries convert Int64 D v)
  | PSubdivisions D => option_map (fun l => LSubdivisions (map to_uint64 l)) (entries convert UInt64 D v)
  | PIndex => option_map LIndex (within int64_range (as_integer convert v))
  | PUnsigned => option_map LUnsigned (within uint64_range (as_integer convert v))
  | PFloat =>
      match v with
      | VFloat x => Some (LFloat x)
      | VInt z => if convert then Some (LFloat (IZR z)) else None
      | VBool b => if convert then Some (LFloat (if b then 1 else 0)) else None
      | VArray _ [x] => if convert then Some (LFloat x) else None
      | _ => None
      end
  | PBool =>
      match v with
      | VBool b => Some (LBool b)
      | VNone => if convert then Some (LBool false) else None
      | VInt z => if convert then Some (LBool (negb (z =? 0)%Z)) else None
      | VFloat x => if convert then Some (LBool (nonzero x)) else None
      | VArray _ [x] => if convert then Some (LBool (nonzero x)) else None
      | _ => None
      end
  | PElement c =>
      match v with
      | VElement c' nodes =>
          match c, c' with
          | Tetrahedron4, Tetrahedron4 | Tetrahedron10, Tetrahedron10 | Hexahedron8, Hexahedron8 | Hexahedron20, Hexahedron20
          | RectangularHexahedron8, RectangularHexahedron8 | RectangularHexahedron20, RectangularHexahedron20
          | RectangularQuad4, RectangularQuad4 => Some (LElement nodes)
          | _, _ => None
          end
      | _ => None
      end
  | PObject => Some (LObject v)
  end.
(** The defaults complete the arguments when exactly the parameters that have one are missing. *)
Fixpoint load_all (convert : bool) (ps : list param) (ds : list loaded) (vs : list value) : option (list loaded) :=
  match ps, vs with
  | [], [] => Some []
  | p :: ps', v :: vs' =>
      match load convert p v with
      | Some x => match load_all convert ps' ds vs' with Some l => Some (x :: l) | None => None end
      | None => None
      end
  | [], _ :: _ => None
  | _ :: _, [] => if length ps =? length ds then Some ds else None
  end.

(** ** Answers *)
(** What the functions of C++ return: size_t and long long, bool, the three kinds of vectors, std::array and std::vector of
    indices, std::set of indices, an element, an object of Python, nothing.  [RDivision]: an integer has been divided by zero,
    which ends the process. *)
Inductive result :=
| RInt (z : Z) | RBool (b : bool) | RWorld (p : list R) | RCoordinates (c : list Z) | RSubdivisions (n : list Z)
| RIndices (l : list Z) | RSet (l : list Z) | RElement (c : cpp_class) (nodes : list (list R)) | RObject (v : value) | RVoid | RDivision.
Inductive outcome := Raises | Dies | Returns (v : value).
(** The conversion of the returned value; the class of a returned element must be registered, otherwise a TypeError is raised. *)
Definition cast (geometry_imported : bool) (r : result) : outcome :=
  match r with
  | RInt z => Returns (VInt z)
  | RBool b => Returns (VBool b)
  | RWorld p => Returns (VArray Float64 p)
  | RCoordinates c => Returns (VArray Int64 (map IZR c))
  | RSubdivisions n => Returns (VArray UInt64 (map IZR n))
  | RIndices l => Returns (VList (map IZR l))
  | RSet l => Returns (VSet l)
  | RElement c nodes => if registered geometry_imported c then Returns (VElement c nodes) else Raises
  | RObject v => Returns v
  | RVoid => Returns VNone
  | RDivision => Dies
  end.

(** An overload: parameters after self, the defaults of the last ones, the function ([None]: cannot happen). *)
Record overload := { params : list param; defaults : list loaded; body : list loaded -> option result }.
Definition try_overload (convert : bool) (vs : list value) (o : overload) : option result :=
  match load_all convert (params o) (defaults o) vs with Some l => body o l | None => None end.
Fixpoint first_of {A B} (f : A -> option B) (l : list A) : option B :=
  match l with [] => None | a :: l => match f a with Some b => Some b | None => first_of f l end end.
(** The dispatcher of pybind11 (pybind11/pybind11.h): the overloads in the order of their definition, without conversions,
    then with them; TypeError when none takes the arguments. *)
Definition dispatch (geometry_imported : bool) (chain : list overload) (vs : list value) : outcome :=
  match first_of (try_overload false vs) chain with
  | Some r => cast geometry_imported r
  | None => match first_of (try_overload true vs) chain with Some r => cast geometry_imported r | None => Raises end
  end.

(** ** Classes *)
(** A class of Python: the methods that it defines itself, each with its chain of overloads, and its base. *)
Inductive pyclass := Class (own : list (string * list overload)) (base : option pyclass).
(** o.def(name, f): appended to the chain of the same name of the same class; a chain of the base is not extended but hidden
    (pybind11.h, initialize_generic: "Never append a method to an overload chain of a parent class"). *)
Fixpoint define (own : list (string * list overload)) (name : string) (o : overload) : list (string * list overload) :=
  match own with
  | [] => [(name, [o])]
  | (n, chain) :: own => if String.eqb n name then (n, chain ++ [o]) :: own else (n, chain) :: define own name o
  end.
Definition defined (defs : list (string * overload)) : list (string * list overload) :=
  fold_left (fun own d => define own (fst d) (snd d)) defs [].
Fixpoint own_chain (own : list (string * list overload)) (name : string) : option (list overload) :=
  match own with [] => None | (n, chain) :: own => if String.eqb n name then Some chain else own_chain own name end.
(** Attributes are looked for in the class, then in its base. *)
Fixpoint find_method (c : pyclass) (name : string) : option (list overload) :=
  match c with
  | Class own base =>
      match own_chain own name with
      | Some chain => Some chain
      | None => match base with Some b => find_method b name | None => None end
      end
  end.

(** ** The functions of C++ in dimensions 2 and 3 *)
(** BaseGrid.h 77-91; n + one and prod() on unsigned integers *)
Definition count_cells (ns : list Z) : Z :=
  match ns with [nx; ny] => m_number_of_cells2 nx ny | [nx; ny; nz] => m_number_of_cells3 nx ny nz | _ => 0%Z end.
Definition count_nodes (ns : list Z) : Z :=
  match ns with [nx; ny] => m_number_of_nodes2 nx ny | [nx; ny; nz] => m_number_of_nodes3 nx ny nz | _ => 0%Z end.
(** BaseMultidimensionalGrid.h 47-86 *)
Definition index_of_node (ns c : list Z) : Z :=
  match ns, c with
  | [nx; ny], [i; j] => m_node_index_at2 nx (i, j)
  | [nx; ny; nz], [i; j; k] => m_node_index_at3 nx ny (i, j, k)
  | _, _ => 0%Z
  end.
Definition coordinates_of_node (ns : list Z) (index : Z) : list Z :=
  match ns with
  | [nx; ny] => let '(i, j) := m_node_coordinates_at2 nx index in [i; j]
  | [nx; ny; nz] => let '(i, j, k) := m_node_coordinates_at3 nx ny index in [i; j; k]
  | _ => []
  end.
(** BaseMultidimensionalGrid.h 117-158 *)
Definition index_of_cell (ns c : list Z) : Z :=
  match ns, c with
  | [nx; ny], [i; j] => m_cell_index_at2 nx (i, j)
  | [nx; ny; nz], [i; j; k] => m_cell_index_at3 nx ny (i, j, k)
  | _, _ => 0%Z
  end.
Definition coordinates_of_cell (ns : list Z) (index : Z) : list Z :=
  match ns with
  | [nx; ny] => let '(i, j) := m_cell_coordinates_at2 nx index in [i; j]
  | [nx; ny; nz] => let '(i, j, k) := m_cell_coordinates_at3 nx ny index in [i; j; k]
  | _ => []
  end.
(** Lines 147 and 152-153: the divisors *)
Definition cell_divisors_vanish (ns : list Z) : bool :=
  match ns with
  | [nx; ny] => (nx =? 0)%Z
  | [nx; ny; nz] => (umul nx ny =? 0)%Z || (nx =? 0)%Z
  | _ => false
  end.
(** Lines 75 and 80-81: nx + 1 and (nx + 1) (ny + 1) *)
Definition node_divisors_vanish (ns : list Z) : bool :=
  match ns with
  | [nx; ny] => (uadd nx 1 =? 0)%Z
  | [nx; ny; nz] => (umul (uadd nx 1) (uadd ny 1) =? 0)%Z || (uadd nx 1 =? 0)%Z
  | _ => false
  end.
(** Topology/Grid/Grid.h 98-109, 224-240 *)
Definition nodes_of_cell (ns c : list Z) : list Z :=
  match ns, c with
  | [nx; ny], [i; j] =>
      let c := (i, j) in
      [ m_node_index_at2 nx c; m_node_index_at2 nx (add2 c e2_1); m_node_index_at2 nx (add2 (add2 c e2_1) e2_2);
        m_node_index_at2 nx (add2 c e2_2) ]
  | [nx; ny; nz], [i; j; k] =>
      let c := (i, j, k) in
      [ m_node_index_at3 nx ny c; m_node_index_at3 nx ny (add3 c e3_1); m_node_index_at3 nx ny (add3 (add3 c e3_1) e3_2);
        m_node_index_at3 nx ny (add3 c e3_2); m_node_index_at3 nx ny (add3 c e3_3); m_node_index_at3 nx ny (add3 (add3 c e3_1) e3_3);
        m_node_index_at3 nx ny (add3 (add3 (add3 c e3_1) e3_2) e3_3); m_node_index_at3 nx ny (add3 (add3 c e3_2) e3_3) ]
  | _, _ => []
  end.
(** Topology/Grid/Grid.h 84-89, 210-215: the element returned by cell_at, by its class and nodes *)
Definition cell_element (g : grid) (c : list Z) : result :=
  match g with
  | [_; _] => RElement RectangularQuad4 (map (map3 ax_cell_world g c) quad_corners)
  | _ => RElement RectangularHexahedron8 (map (map3 ax_cell_world g c) hexa_corners)
  end.
(** Topology/Grid/Grid.h 119-187, 250-324, 328-433.  The divisors of edge are 2 nx + 1 and, in three dimensions, also the
    number of edges of a slice and of the next gap; those of face are the number of faces of a slice and of the next gap, and nx. *)
Definition count_edges (ns : list Z) : Z :=
  match ns with [nx; ny] => m_number_of_edges2 nx ny | [nx; ny; nz] => m_number_of_edges3 nx ny nz | _ => 0%Z end.
Definition edge_nodes (ns : list Z) (index : Z) : result :=
  match ns with
  | [nx; ny] => let '(a, b) := m_edge2 nx index in RIndices [a; b]
  | [nx; ny; nz] =>
      if (uadd (uadd (umul (uadd (umul 2 nx) 1) ny) nx) (umul (uadd nx 1) (uadd ny 1)) =? 0)%Z then RDivision
      else let '(a, b) := m_edge3 nx ny index in RIndices [a; b]
  | _ => RVoid
  end.
Definition count_faces (ns : list Z) : Z := match ns with [nx; ny; nz] => m_number_of_faces3 nx ny nz | _ => 0%Z end.
Definition face_nodes (ns : list Z) (index : Z) : result :=
  match ns with
  | [nx; ny; nz] =>
      if ((uadd (umul nx ny) (uadd (umul (uadd nx 1) ny) (umul nx (uadd ny 1))) =? 0) || (nx =? 0) || (umul (uadd nx 1) (uadd ny 1) =? 0)
          || (uadd nx 1 =? 0))%Z
      then RDivision else RIndices (m_face3 nx ny index)
  | _ => RVoid
  end.

(** ** Grid.cpp *)
Definition f0 (r : result) : overload := {| params := []; defaults := []; body := fun _ => Some r |}.
Definition f1 (p : param) (f : loaded -> option result) : overload :=
  {| params := [p]; defaults := []; body := fun l => match l with [x] => f x | _ => None end |}.
Definition f2 (p q : param) (ds : list loaded) (f : loaded -> loaded -> option result) : overload :=
  {| params := [p; q]; defaults := ds; body := fun l => match l with [x; y] => f x y | _ => None end |}.
Definition on_world (f : list R -> result) (x : loaded) : option result := match x with LWorld p => Some (f p) | _ => None end.
Definition on_coordinates (f : list Z -> result) (x : loaded) : option result := match x with LCoordinates c => Some (f c) | _ => None end.
Definition on_index (f : Z -> result) (x : loaded) : option result := match x with LIndex i => Some (f i) | _ => None end.
Definition on_unsigned (f : Z -> result) (x : loaded) : option result := match x with LUnsigned i => Some (f i) | _ => None end.
Definition on_world_bool (f : list R -> bool -> result) (x y : loaded) : option result :=
  match x, y with LWorld p, LBool b => Some (f p b) | _, _ => None end.
Definition on_world_float (f : list R -> R -> result) (x y : loaded) : option result :=
  match x, y with LWorld p, LFloat e => Some (f p e) | _, _ => None end.
Definition guarded (dies : bool) (r : result) : result := if dies then RDivision else r.

Local Open Scope string_scope.
(** Grid.cpp 18-35: the class BaseGrid2D or BaseGrid3D, as seen by the grid [g] *)
Definition BaseGrid (g : grid) : pyclass :=
  let D := length g in
  let ns := subdivisions g in
  Class (defined
    [ ("number_of_cells", f0 (RInt (count_cells ns)));
      ("number_of_nodes", f0 (RInt (count_nodes ns)));
      ("anchor_position", f0 (RWorld (map ax_anchor g)));
      ("N", f0 (RSubdivisions ns));
      ("H", f0 (RWorld (map ax_H g)));
      ("size", f0 (RWorld (map ax_size g)));
      ("cell_index_containing", f2 (PWorld D) PBool [LBool true] (on_world_bool (fun p b => RInt (cell_index_containing g p b))));
      ("cell_coordinates_at", f1 (PWorld D) (on_world (fun p => RCoordinates (cell_coordinates_at g p false))));
      ("cell_coordinates_at", f2 (PWorld D) PBool [] (on_world_bool (fun p b => RCoordinates (cell_coordinates_at g p b))));
      ("cells_around", f1 (PWorld D) (on_world (fun p => RIndices (cells_around g p))));
      ("node", f1 (PCoordinates D) (on_coordinates (fun c => RWorld (node g c))));
      ("contains", f2 (PWorld D) PFloat [LFloat EPSILON] (on_world_float (fun p e => RBool (contains g p e)))) ]) None.
(** Grid.cpp 41-53: BaseMultidimensionalGrid2D or BaseMultidimensionalGrid3D *)
Definition BaseMultidimensionalGrid (g : grid) : pyclass :=
  let D := length g in
  let ns := subdivisions g in
  Class (defined
    [ ("node_index_at", f1 (PCoordinates D) (on_coordinates (fun c => RInt (index_of_node ns c))));
      ("node_coordinates_at", f1 PIndex (on_index (fun i => guarded (node_divisors_vanish ns) (RCoordinates (coordinates_of_node ns i)))));
      ("node", f1 PIndex (on_index (fun i => guarded (node_divisors_vanish ns) (RWorld (node g (coordinates_of_node ns i))))));
      ("cell_index_at", f1 (PCoordinates D) (on_coordinates (fun c => RInt (index_of_cell ns c))));
      ("cell_coordinates_at", f1 PIndex (on_index (fun i => guarded (cell_divisors_vanish ns) (RCoordinates (coordinates_of_cell ns i))))) ])
    (Some (BaseGrid g)).
(** Grid.cpp 56-83: Grid2D or Grid3D *)
Definition Grid (g : grid) : pyclass :=
  let D := length g in
  let ns := subdivisions g in
  Class (defined (
    [ ("node_indices_of", f1 (PCoordinates D) (on_coordinates (fun c => RIndices (nodes_of_cell ns c))));
      ("node_indices_of", f1 PIndex (on_index (fun i => guarded (cell_divisors_vanish ns) (RIndices (nodes_of_cell ns (coordinates_of_cell ns i))))));
      ("cell_at", f1 (PCoordinates D) (on_coordinates (cell_element g)));
      ("cell_at", f1 PIndex (on_index (fun i => guarded (cell_divisors_vanish ns) (cell_element g (coordinates_of_cell ns i))))) ]
    ++ (if (1 <? D)%nat then [ ("number_of_edges", f0 (RInt (count_edges ns))); ("edge", f1 PUnsigned (on_unsigned (edge_nodes ns))) ] else [])
    ++ (if (D =? 3)%nat then [ ("number_of_faces", f0 (RInt (count_faces ns))); ("face", f1 PUnsigned (on_unsigned (face_nodes ns))) ] else [])))
    (Some (BaseMultidimensionalGrid g)).

(** C.name(g, arguments...) for a class C of the grid [g]; AttributeError when C has no such method. *)
Definition call_of (geometry_imported : bool) (c : pyclass) (name : string) (vs : list value) : outcome :=
  match find_method c name with Some chain => dispatch geometry_imported chain vs | None => Raises end.
(** g.name(arguments...) *)
Definition call (geometry_imported : bool) (g : grid) (name : string) (vs : list value) : outcome :=
  call_of geometry_imported (Grid g) name vs.

(** Grid.cpp 68 and 85-89, BaseGrid.h 70-72: the constructors.  Grid1D is commented out, and the base classes have none. *)
Definition make_axes (anchor : list R) (n : list Z) (size : list R) : grid := map3 Axis anchor n size.
Definition construct (name : string) (vs : list value) : option grid :=
  let build D :=
    let params := [PWorld D; PSubdivisions D; PWorld D] in
    match (match load_all false params [] vs with Some l => Some l | None => load_all true params [] vs end) with
    | Some [LWorld anchor; LSubdivisions n; LWorld size] => Some (make_axes anchor n size)
    | _ => None
    end in
  if String.eqb name "Grid2D" then build 2 else if String.eqb name "Grid3D" then build 3 else None.

(** ** HashGrid.cpp *)
(** A hash grid: the class of its elements, the size of its cells and its table. *)
Record hash_grid := { element_class : cpp_class; cell_size : R; contents : table }.
(** HashGrid.cpp 31-36: names of the classes *)
Definition hash_classes : list (string * cpp_class) :=
  [ ("Tetrahedron4HashGrid", Tetrahedron4); ("Tetrahedron10HashGrid", Tetrahedron10); ("Hexahedron20HashGrid", Hexahedron8);
    ("Hexahedron8HashGrid", Hexahedron20); ("RectangularHexahedron8HashGrid", RectangularHexahedron8);
    ("RectangularHexahedron20HashGrid", RectangularHexahedron20) ].
Fixpoint find_class (l : list (string * cpp_class)) (name : string) : option cpp_class :=
  match l with [] => None | (n, c) :: l => if String.eqb n name then Some c else find_class l name end.
(** What a call that makes a hash grid returns: an object, None, or an exception. *)
Inductive made := NoHashGrid | MadeNone | Made (h : hash_grid).
Definition empty_hash_grid (c : cpp_class) (h : R) : hash_grid := {| element_class := c; cell_size := h; contents := [] |}.
(** HashGrid.cpp 23-24: the two constructors.  The second only reserves memory (HashGrid.h 33-35). *)
Definition construct_hash_grid (name : string) (vs : list value) : made :=
  match find_class hash_classes name with
  | None => NoHashGrid
  | Some c =>
      let attempt convert :=
        match load_all convert [PFloat] [] vs with
        | Some l => Some l
        | None => load_all convert [PFloat; PUnsigned] [] vs
        end in
      match (match attempt false with Some l => Some l | None => attempt true end) with
      | Some (LFloat h :: _) => Made (empty_hash_grid c h)
      | _ => NoHashGrid
      end
  end.
(** HashGrid.cpp 38-60: the function HashGrid.  The handle of a class that is not registered raises a RuntimeError; an object
    that is none of the six classes gives None. *)
Definition make_hash_grid (geometry_imported : bool) (vs : list value) : made :=
  let params := [PObject; PFloat; PUnsigned] in
  match (match load_all false params [LUnsigned 0] vs with
         | Some l => Some l
         | None => load_all true params [LUnsigned 0] vs end) with
  | Some (LObject v :: rest) =>
      if geometry_imported then
        match v with
        | VClass c => match c with RectangularQuad4 => MadeNone | _ => match rest with LFloat h :: _ => Made (empty_hash_grid c h) | _ => NoHashGrid end end
        | _ => MadeNone
        end
      else NoHashGrid
  | _ => NoHashGrid
  end.
(** HashGrid.cpp 25: h.add(element, id); [None] is a TypeError, which changes nothing *)
Definition hash_add (h : hash_grid) (vs : list value) : option hash_grid :=
  let params := [PElement (element_class h); PUnsigned] in
  match (match load_all false params [] vs with Some l => Some l | None => load_all true params [] vs end) with
  | Some [LElement nodes; LUnsigned id] =>
      Some {| element_class := element_class h; cell_size := cell_size h; contents := add (cell_size h) (contents h) nodes id |}
  | _ => None
  end.
(** HashGrid.cpp 26: h.get(p) *)
Definition hash_get (h : hash_grid) (vs : list value) : outcome :=
  dispatch true [f1 (PWorld 3) (on_world (fun p => RSet (get (cell_size h) (contents h) p)))] vs.

(** A session with a hash grid: calls of add; one that raises an exception changes nothing. *)
Fixpoint after_adds (h : hash_grid) (calls : list (list value)) : hash_grid :=
  match calls with
  | [] => h
  | vs :: calls => after_adds (match hash_add h vs with Some h' => h' | None => h end) calls
  end.
