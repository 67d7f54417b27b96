(** What the force fields draw of their mesh.
    /repo/src/SofaCaribou/Forcefield/CaribouForcefield.inl:197-340 and the functions triangulate_face of
    CaribouForcefield[Triangle|Quad|Tetrahedron|Hexahedron].cpp; TetrahedronElasticForce.cpp:373-440;
    HexahedronElasticForce.cpp:601-780.
    Simplifications: coordinates are reals; the calls that save and restore the state of the drawing tool, the lighting and
    the wire frame flag are left out; the branch for 1D elements (lines 248-251, 299-303, 320-322) is left out, as no force
    field is compiled for segments. *)

From Coq Require Import ZArith Reals List Bool Arith.
From Verif Require Import GridGeoModel ShapeModel LinAlg BarycentricModel.
Import ListNotations.
Open Scope R_scope.

(** One call drawTriangles(vertices, color): three vertices a triangle; red, green and blue in 255ths. *)
Record drawing_call := { vertices : list (list R); color : list Z }.

(** CaribouForcefield.inl:203-227. *)
Definition kelly_colors_hex : list Z :=
  [0xFFFFB300; 0xFF803E75; 0xFFFF6800; 0xFFA6BDD7; 0xFFC10020; 0xFFCEA262; 0xFF817066; 0xFF007D34; 0xFFF6768E; 0xFF00538A;
   0xFFFF7A5C; 0xFF53377A; 0xFFFF8E00; 0xFFB32851; 0xFFF4C800; 0xFF7F180D; 0xFF93AA00; 0xFF593315; 0xFFF13A13; 0xFF232C16]%Z.

(** Lines 326-332. *)
Definition group_color (group_id : nat) : list Z :=
  let hex_color := nth (group_id mod 20) kelly_colors_hex 0%Z in
  [Z.land (Z.shiftr hex_color 16) 255; Z.land (Z.shiftr hex_color 8) 255; Z.land (Z.shiftr hex_color 0) 255].

(** Lines 291-297: the nodes of scaled_element. *)
Definition scaled_nodes (D : nat) (e : element) (scale : R) (nodes : list (list R)) : list (list R) :=
  let c := world_coordinates D e nodes (center_local e) in
  map (fun p => vadd c (vscale scale (vminus p c))) nodes.

(** emplace_back(n[0], n[1], 0) in 2D, emplace_back(n[0], n[1], n[2]) in 3D (e.g. CaribouForcefield[Quad].cpp:47, 81). *)
Definition emplace (D : nat) (n : list R) : list R :=
  [nth 0 n 0; nth 1 n 0; if Nat.eqb D 2 then 0 else nth 2 n 0].

(** triangulate_face: [Triangle].cpp:43-48, 73-78, 107-112, 137-142; [Quad].cpp:43-52, 77-86, 115-124, 149-158;
    [Tetrahedron].cpp:40-46, 73-79; [Hexahedron].cpp:40-50, 77-87: the nodes of the triangles, in order. *)
Definition face_triangles (e : element) (face_id : nat) : list nat :=
  let face := nth face_id (boundary_elements_node_indices e) [] in
  let n i := nth i face 0%nat in
  match e with
  | Triangle_Linear | Triangle_Quadratic => [0; 1; 2]%nat
  | Quad_Linear | Quad_Quadratic => [0; 1; 2; 2; 3; 0]%nat
  | Tetrahedron_Linear | Tetrahedron_Quadratic => [n 0; n 1; n 2]%nat
  | Hexahedron_Linear | Hexahedron_Quadratic => [n 0; n 1; n 2; n 2; n 3; n 0]%nat
  | _ => []
  end.
Definition triangulate_face (D : nat) (e : element) (nodes : list (list R)) (face_id : nat) : list (list R) :=
  map (fun i => emplace D (nth i nodes [])) (face_triangles e face_id).

(** Lines 257-272: the number of groups of triangles. *)
Definition number_of_groups (e : element) : nat :=
  match CanonicalDimension e with
  | 2%nat => 1%nat
  | 3%nat => length (boundary_elements_node_indices e)
  | _ => O
  end.

(** Lines 274-318: one element; x are the current positions of the nodes. *)
Definition add_element (d : domain) (scale : R) (x : list (list R)) (triangle_groups : list (list (list R))) (row : list nat)
    : list (list (list R)) :=
  let element_nodes_position := map (fun i => nth i x []) row in
  let scaled_element := scaled_nodes (dim d) (kind d) scale element_nodes_position in
  map (fun face_id => nth face_id triangle_groups [] ++ triangulate_face (dim d) (kind d) scaled_element face_id)
      (seq 0 (number_of_groups (kind d))).

(** Lines 229-334.  None is the read of a position that does not exist (undefined behaviour). *)
Definition draw (show : bool) (d : domain) (scale : R) (x : list (list R)) : option (list drawing_call) :=
  if negb show then Some []
  else if Nat.eqb (length (connectivity d)) 0 then Some []
  else if negb (forallb (forallb (fun i => Nat.ltb i (length x))) (connectivity d)) then None
  else
    let triangle_groups := fold_left (add_element d scale x) (connectivity d) (repeat [] (number_of_groups (kind d))) in
    Some (map (fun group_id => {| vertices := nth group_id triangle_groups []; color := group_color group_id |})
              (seq 0 (length triangle_groups))).

(** The two other force fields push the vertices of element after element into a fixed number of arrays: [faces] are the
    local nodes pushed in each array, [point] the point drawn for a node. *)
Definition push_elements (faces : list (list nat)) (point : list (list R) -> list R -> list R) (x : list (list R))
    (rows : list (list nat)) : list (list (list R)) :=
  fold_left (fun points row =>
    let nodes := map (fun i => nth i x []) row in
    map (fun k => nth k points [] ++ map (fun i => point nodes (nth i nodes [])) (nth k faces [])) (seq 0 (length faces)))
    rows (repeat [] (length faces)).
Definition in_range (x : list (list R)) (rows : list (list nat)) : bool :=
  forallb (forallb (fun i => Nat.ltb i (length x))) rows.
Definition vsum (l : list (list R)) : list R :=
  match l with [] => [] | p :: rest => fold_left vadd rest p end.

(** TetrahedronElasticForce.cpp:401-405. *)
Definition tetrahedron_center (nodes : list (list R)) : list R := vscale (125 / 1000) (vsum nodes).
Definition tetrahedron_point (nodes : list (list R)) (p : list R) : list R :=
  vscale (666667 / 1000000) (vadd p (tetrahedron_center nodes)).
(** Lines 407-421. *)
Definition tetrahedron_faces : list (list nat) := [[0; 1; 2]; [1; 2; 3]; [2; 3; 0]; [3; 0; 1]]%nat.
(** Lines 424-429. *)
Definition tetrahedron_colors : list (list Z) := [[255; 0; 0]; [255; 0; 127]; [255; 255; 0]; [255; 127; 255]]%Z.
(** Lines 373-434: attached says whether the topology was found. *)
Definition draw_tetrahedra (attached show : bool) (x : list (list R)) (rows : list (list nat)) : option (list drawing_call) :=
  if negb attached then Some []
  else if negb show then Some []
  else if negb (in_range x rows) then None
  else
    let points := push_elements tetrahedron_faces tetrahedron_point x rows in
    Some (map (fun k => {| vertices := nth k points []; color := nth k tetrahedron_colors [] |}) (seq 0 4)).

(** HexahedronElasticForce.cpp:624-643: a, ..., h are the nodes 0, ..., 7. *)
Definition hexahedron_center (nodes : list (list R)) : list R :=
  let x i := nth i nodes [] in
  vscale (125 / 1000) (vsum [x 0; x 1; x 2; x 3; x 4; x 6; x 5; x 7]%nat).
Definition percentage : R := 15 / 100.
Definition hexahedron_point (nodes : list (list R)) (p : list R) : list R :=
  vminus p (vscale percentage (vminus p (hexahedron_center nodes))).
(** Lines 647-687. *)
Definition hexahedron_faces : list (list nat) :=
  [[0; 1; 2; 0; 2; 3]; [4; 5; 6; 4; 6; 7]; [2; 3; 7; 2; 7; 6]; [0; 1; 5; 0; 5; 4]; [0; 3; 7; 0; 7; 4]; [1; 2; 6; 1; 6; 5]]%nat.
(** Lines 690-695, 768-773: in hundredths. *)
Definition hexahedron_colors : list (list Z) :=
  [[70; 70; 10]; [70; 0; 0]; [0; 70; 0]; [0; 0; 70]; [10; 70; 70]; [70; 10; 70]]%Z.
Definition ignored_color : list Z := [49; 49; 49]%Z.
(** Lines 601-773: the loop is run twice, for points and for ignored_points. *)
Definition draw_hexahedra (attached show : bool) (x : list (list R)) (rows : list (list nat)) : option (list drawing_call) :=
  if negb attached then Some []
  else if negb show then Some []
  else if negb (in_range x rows) then None
  else
    let points := push_elements hexahedron_faces hexahedron_point x rows in
    let ignored_points := push_elements hexahedron_faces hexahedron_point x rows in
    Some (map (fun k => {| vertices := nth k points []; color := nth k hexahedron_colors [] |}) (seq 0 6)
          ++ map (fun k => {| vertices := nth k ignored_points []; color := ignored_color |}) (seq 0 6)).
