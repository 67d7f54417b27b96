(** The functions Segment, Triangle, Quad, Tetrahedron, Hexahedron and RectangularHexahedron of the Python module:
    overload resolution of pybind11, conversion of the arguments, and construction of the element. *)

From Coq Require Import ZArith Reals List Arith Bool.
From Verif Require Import GridGeoModel ShapeModel LinAlg RectModel.
Import ListNotations.
Open Scope nat_scope.

(** src/Caribou/Python/Config/Caribou.cpp 9-18: the two enumerations. *)
Inductive dim := D1 | D2 | D3.
Inductive order := Linear | Quadratic.
(** Arrays with one or two axes: shape and entries. *)
Inductive array := Vec (l : list R) | Mat (r c : nat) (f : nat -> nat -> R).
(** How an array is given: a numpy array of doubles, a numpy array of other numbers, a Python list. *)
Inductive kind := Doubles | OtherNumbers | PythonList.
(** The positional arguments of a call (keywords are not modelled). *)
Inductive value :=
| Float (x : R) | Int (z : Z) | Arr (k : kind) (a : array) | DimensionV (d : dim) | OrderV (o : order)
| Other.  (* anything else: None, strings, arrays with no, three or more axes... *)

(** Types of the parameters: FLOATING_POINT_TYPE, Eigen::Matrix<FLOATING_POINT_TYPE, n, 1>,
    Eigen::Matrix<FLOATING_POINT_TYPE, r, c> with c > 1, and the enumerations. *)
Inductive param := PFloat | PVector (n : nat) | PMatrix (r c : nat) | PDimension | POrder.
Inductive loaded := LFloat (x : R) | LVector (l : list R) | LMatrix (rows : list (list R)) | LDimension (d : dim) | LOrder (o : order).
Definition rows_of (r c : nat) (f : nat -> nat -> R) : list (list R) := map (fun i => map (f i) (seq 0 c)) (seq 0 r).
(** Without conversion only arrays of doubles are loaded; with it, everything numpy makes an array of. *)
Definition accepted (convert : bool) (k : kind) : bool := (convert || match k with Doubles => true | _ => false end)%bool.
(** The type casters of pybind11 (not part of the repository; behaviour of pybind11/cast.h and eigen.h).  A vector takes an
    array with one axis of its size, or with two axes of its exact shape; a matrix an array of its exact shape.  A float
    takes, with conversion, integers and numpy arrays with a single entry.
    Used by src/Caribou/Python/Geometry/Segment.cpp 101-155 and the other files. *)
Definition load (convert : bool) (p : param) (v : value) : option loaded :=
  match p, v with
  | PFloat, Float x => Some (LFloat x)
  | PFloat, Int z => if convert then Some (LFloat (IZR z)) else None
  | PFloat, Arr k (Vec [x]) => match k with PythonList => None | _ => if convert then Some (LFloat x) else None end
  | PFloat, Arr k (Mat 1 1 f) => match k with PythonList => None | _ => if convert then Some (LFloat (f 0 0)) else None end
  | PVector n, Arr k (Vec l) => if Nat.eqb (length l) n then if accepted convert k then Some (LVector l) else None else None
  | PVector n, Arr k (Mat r c f) =>
      if (Nat.eqb r n && Nat.eqb c 1)%bool then if accepted convert k then Some (LVector (map (fun i => f i 0) (seq 0 r))) else None else None
  | PMatrix r' c', Arr k (Mat r c f) =>
      if (Nat.eqb r r' && Nat.eqb c c')%bool then if accepted convert k then Some (LMatrix (rows_of r c f)) else None else None
  | PDimension, DimensionV d => Some (LDimension d)
  | POrder, OrderV o => Some (LOrder o)
  | _, _ => None
  end.

(** What the functions return: an element with its nodes, or a rectangular hexahedron with its center, size and rotation. *)
Inductive made := Element (D : nat) (e : element) (nodes : list (list R)) | Rectangular (e : element) (r : rectangular).
(** An overload: parameters, the default value of further ones, and the function. *)
Record overload := { params : list param; defaults : list loaded; body : list loaded -> option made }.
Fixpoint load_all (convert : bool) (ps : list param) (ds : list loaded) (vs : list value) : option (list loaded) :=
  match ps, vs with
  | [], [] => Some []
  | p :: ps, v :: vs =>
      match load convert p v with
      | Some x => match load_all convert ps ds vs with Some l => Some (x :: l) | None => None end
      | None => None
      end
  | [], _ :: _ => None
  | _ :: _, [] => if Nat.eqb (length ps) (length ds) then Some ds else None
  end.
Definition try_overload (convert : bool) (vs : list value) (o : overload) : option made :=
  match load_all convert (params o) (defaults o) vs with Some l => body o l | None => None end.
Fixpoint first_of {A B} (f : A -> option B) (l : list A) : option B :=
  match l with [] => None | a :: l => match f a with Some b => Some b | None => first_of f l end end.
(** The dispatcher of pybind11 (pybind11/pybind11.h): the overloads in the order of their definition, without conversions,
    then with them; None: a TypeError. *)
Definition dispatch (table : list overload) (vs : list value) : option made :=
  match first_of (try_overload false vs) table with Some m => Some m | None => first_of (try_overload true vs) table end.

(** The overloads of the six functions are instances of a few forms. *)
Definition number (d : dim) : nat := match d with D1 => 1 | D2 => 2 | D3 => 3 end.
Definition pad (D : nat) (p : list R) : list R := p ++ repeat 0%R (D - length p).
(** The default constructors: src/Caribou/Geometry/Segment.h 52-63, 133-147; Triangle.h 66-76, 173-189; Quad.h 74-86, 204-224;
    Tetrahedron.h 73-78, 203-214; Hexahedron.h 78-87, 260-282. *)
Definition default_element (D : nat) (e : element) : made := Element D e (map (pad D) (canonical_nodes e)).
Definition f_default (m : made) : overload := {| params := []; defaults := []; body := fun _ => Some m |}.
Definition f_order (f : order -> made) : overload :=
  {| params := [POrder]; defaults := []; body := fun l => match l with [LOrder o] => Some (f o) | _ => None end |}.
Definition f_dimension (f : dim -> made) : overload :=
  {| params := [PDimension]; defaults := []; body := fun l => match l with [LDimension d] => Some (f d) | _ => None end |}.
Definition f_dimension_order (f : dim -> order -> made) : overload :=
  {| params := [PDimension; POrder]; defaults := [];
     body := fun l => match l with [LDimension d; LOrder o] => Some (f d o) | _ => None end |}.
(** const Eigen::Matrix<double, n, D> & nodes *)
Definition f_nodes (n D : nat) (f : list (list R) -> made) : overload :=
  {| params := [PMatrix n D]; defaults := []; body := fun l => match l with [LMatrix rows] => Some (f rows) | _ => None end |}.
Definition f_nodes_order (n D : nat) (f : list (list R) -> order -> option made) : overload :=
  {| params := [PMatrix n D; POrder]; defaults := [LOrder Linear];
     body := fun l => match l with [LMatrix rows; LOrder o] => f rows o | _ => None end |}.
(** const Eigen::Matrix<double, D, 1> & n0, ... *)
Fixpoint points_of (l : list loaded) : list (list R) :=
  match l with LVector p :: l => p :: points_of l | _ => [] end.
Definition f_points (n D : nat) (f : list (list R) -> made) : overload :=
  {| params := repeat (PVector D) n; defaults := []; body := fun l => Some (f (points_of l)) |}.
Definition f_points_order (n D : nat) (f : list (list R) -> order -> option made) : overload :=
  {| params := repeat (PVector D) n ++ [POrder]; defaults := [LOrder Linear];
     body := fun l => match nth n l (LOrder Linear) with LOrder o => f (points_of l) o | _ => None end |}.
(** const FLOATING_POINT_TYPE & n0, ... and const Eigen::Matrix<double, n, 1> & nodes: segments in one dimension. *)
Fixpoint floats_of (l : list loaded) : list (list R) := match l with LFloat x :: l => [x] :: floats_of l | _ => [] end.
Definition f_floats (n : nat) (f : list (list R) -> made) : overload :=
  {| params := repeat PFloat n; defaults := []; body := fun l => Some (f (floats_of l)) |}.
Definition f_column (n : nat) (f : list (list R) -> made) : overload :=
  {| params := [PVector n]; defaults := [];
     body := fun l => match l with [LVector p] => Some (f (map (fun x => [x]) p)) | _ => None end |}.
(** T<D, Linear>(nodes), or T<D, Quadratic>(T<D, Linear>(nodes)). *)
Definition by_order (D : nat) (linear : element) (nodes : list (list R)) (o : order) : option made :=
  match o with
  | Linear => Some (Element D linear nodes)
  | Quadratic => option_map (fun en => Element D (fst en) (snd en)) (quadratic_of_linear D linear nodes)
  end.

(** src/Caribou/Python/Geometry/Segment.cpp 58-155 *)
Definition Segment_overloads : list overload :=
  let default d o := default_element (number d) (match o with Linear => Segment_Linear | Quadratic => Segment_Quadratic end) in
  [ f_default (default D1 Linear); f_dimension (fun d => default d Linear); f_order (default D1); f_dimension_order default;
    f_column 2 (Element 1 Segment_Linear); f_floats 2 (Element 1 Segment_Linear);
    f_nodes 2 2 (Element 2 Segment_Linear); f_points 2 2 (Element 2 Segment_Linear);
    f_nodes 2 3 (Element 3 Segment_Linear); f_points 2 3 (Element 3 Segment_Linear);
    f_column 3 (Element 1 Segment_Quadratic); f_floats 3 (Element 1 Segment_Quadratic);
    f_nodes 3 2 (Element 2 Segment_Quadratic); f_points 3 2 (Element 2 Segment_Quadratic);
    f_nodes 3 3 (Element 3 Segment_Quadratic); f_points 3 3 (Element 3 Segment_Quadratic) ].
(** The functions of a surface element: a dimension that is not _2D is treated as _3D. *)
Definition surface_default (l q : element) (d : dim) (o : order) : made :=
  default_element (match d with D2 => 2 | _ => 3 end) (match o with Linear => l | Quadratic => q end).
(** src/Caribou/Python/Geometry/Triangle.cpp 61-147 *)
Definition Triangle_overloads : list overload :=
  let default := surface_default Triangle_Linear Triangle_Quadratic in
  [ f_default (default D2 Linear); f_dimension (fun d => default d Linear); f_order (default D2); f_dimension_order default;
    f_nodes_order 3 2 (by_order 2 Triangle_Linear); f_points_order 3 2 (by_order 2 Triangle_Linear);
    f_nodes_order 3 3 (by_order 3 Triangle_Linear); f_points_order 3 3 (by_order 3 Triangle_Linear);
    f_nodes 6 2 (Element 2 Triangle_Quadratic); f_points 6 2 (Element 2 Triangle_Quadratic);
    f_nodes 6 3 (Element 3 Triangle_Quadratic); f_points 6 3 (Element 3 Triangle_Quadratic) ].
(** src/Caribou/Python/Geometry/Quad.cpp 56-146 *)
Definition Quad_overloads : list overload :=
  let default := surface_default Quad_Linear Quad_Quadratic in
  [ f_default (default D2 Linear); f_dimension (fun d => default d Linear); f_order (default D2); f_dimension_order default;
    f_nodes_order 4 2 (by_order 2 Quad_Linear); f_points_order 4 2 (by_order 2 Quad_Linear);
    f_nodes_order 4 3 (by_order 3 Quad_Linear); f_points_order 4 3 (by_order 3 Quad_Linear);
    f_nodes 8 2 (Element 2 Quad_Quadratic); f_points 8 2 (Element 2 Quad_Quadratic);
    f_nodes 8 3 (Element 3 Quad_Quadratic); f_points 8 3 (Element 3 Quad_Quadratic) ].
(** src/Caribou/Python/Geometry/Tetrahedron.cpp 50-90 *)
Definition Tetrahedron_overloads : list overload :=
  let default o := default_element 3 (match o with Linear => Tetrahedron_Linear | Quadratic => Tetrahedron_Quadratic end) in
  [ f_default (default Linear); f_order default;
    f_nodes_order 4 3 (by_order 3 Tetrahedron_Linear); f_points_order 4 3 (by_order 3 Tetrahedron_Linear);
    f_nodes 10 3 (Element 3 Tetrahedron_Quadratic); f_points 10 3 (Element 3 Tetrahedron_Quadratic) ].
(** src/Caribou/Python/Geometry/Hexahedron.cpp 50-96 *)
Definition Hexahedron_overloads : list overload :=
  let default o := default_element 3 (match o with Linear => Hexahedron_Linear | Quadratic => Hexahedron_Quadratic end) in
  [ f_default (default Linear); f_order default;
    f_nodes_order 8 3 (by_order 3 Hexahedron_Linear); f_points_order 8 3 (by_order 3 Hexahedron_Linear);
    f_nodes 20 3 (Element 3 Hexahedron_Quadratic); f_points 20 3 (Element 3 Hexahedron_Quadratic) ].
(** src/Caribou/Python/Geometry/RectangularHexahedron.cpp 57-128; constructors: src/Caribou/Geometry/BaseRectangularHexahedron.h
    44-57, RectangularHexahedron.h 71-86, 250-276.  The overloads with separate points make a Hexahedron (lines 105-107, 125). *)
Definition rectangular_order (o : order) : element :=
  match o with Linear => RectangularHexahedron_Linear | Quadratic => RectangularHexahedron_Quadratic end.
Definition box (c H : list R) (M : list (list R)) : rectangular := {| p_center := c; p_H := H; p_R := M |}.
Definition identity : list (list R) := [[1%R; 0%R; 0%R]; [0%R; 1%R; 0%R]; [0%R; 0%R; 1%R]].
Definition RectangularHexahedron_overloads : list overload :=
  [ f_default (Rectangular RectangularHexahedron_Linear (box [0%R; 0%R; 0%R] [2%R; 2%R; 2%R] identity));
    f_order (fun o => Rectangular (rectangular_order o) (box [0%R; 0%R; 0%R] [2%R; 2%R; 2%R] identity));
    {| params := [POrder; PVector 3]; defaults := [];
       body := fun l => match l with [LOrder o; LVector c] => Some (Rectangular (rectangular_order o) (box c [2%R; 2%R; 2%R] identity)) | _ => None end |};
    {| params := [POrder; PVector 3; PVector 3]; defaults := [];
       body := fun l => match l with [LOrder o; LVector c; LVector H] => Some (Rectangular (rectangular_order o) (box c H identity)) | _ => None end |};
    {| params := [POrder; PVector 3; PVector 3; PMatrix 3 3]; defaults := [];
       body := fun l => match l with [LOrder o; LVector c; LVector H; LMatrix M] => Some (Rectangular (rectangular_order o) (box c H M)) | _ => None end |};
    f_nodes_order 8 3 (fun rows o => Some (Rectangular (rectangular_order o) (RectangularHexahedron_of Hexahedron_Linear rows)));
    f_points_order 8 3 (by_order 3 Hexahedron_Linear);
    f_nodes 20 3 (fun rows => Rectangular RectangularHexahedron_Quadratic (RectangularHexahedron_of Hexahedron_Quadratic rows));
    f_points 20 3 (Element 3 Hexahedron_Quadratic) ].
Definition Segment := dispatch Segment_overloads.
Definition Triangle := dispatch Triangle_overloads.
Definition Quad := dispatch Quad_overloads.
Definition Tetrahedron := dispatch Tetrahedron_overloads.
Definition Hexahedron := dispatch Hexahedron_overloads.
Definition RectangularHexahedron := dispatch RectangularHexahedron_overloads.
