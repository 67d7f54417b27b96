(** The corotational linear elastic force fields: /repo/src/SofaCaribou/Forcefield/TetrahedronElasticForce.cpp (T below)
    and HexahedronElasticForce.cpp (H below).  Reals are exact.  The topology and the rest positions do not change; the
    topology is not empty (T:90-93, H:124-127 do nothing otherwise). *)

From Coq Require Import Reals List Arith Bool.
From Verif Require Import GridGeoModel ShapeModel LinAlg RectModel BarycentricModel TensorModel MaterialModel SparseModel TractionModel HyperModel.
Import ListNotations.
Open Scope R_scope.

(** The force fields; integration_method of the second one (H:68-86) is OnePointGauss or Regular. *)
Inductive elastic := TetrahedronElastic | HexahedronElastic (OnePointGauss : bool).
Definition kind_of_elements (k : elastic) : element :=
  match k with TetrahedronElastic => Tetrahedron_Linear | HexahedronElastic _ => Hexahedron_Linear end.
(** T:129, H:152-164 *)
Definition integration_points (k : elastic) : list (list R * R) :=
  match k with
  | TetrahedronElastic => firstn 1 (gauss_nodes Tetrahedron_Linear)
  | HexahedronElastic true => [ ([0; 0; 0], 8) ]
  | HexahedronElastic false => gauss_nodes Hexahedron_Linear
  end.

(** /repo/src/Caribou/Geometry/BaseTetrahedron.h:84-102 *)
Definition tetrahedron_frame (nodes : list (list R)) : list (list R) :=
  let node i := nth i nodes [] in
  let u := normalized (vminus (node 1%nat) (node 0%nat)) in
  let v := normalized (vminus (node 2%nat) (node 0%nat)) in
  let w := normalized (vcross u v) in
  let v := normalized (vcross w u) in
  transpose 3 [u; v; w].
(** T:121 and 189, H:205 and 252 *)
Definition frame (k : elastic) (nodes : list (list R)) : list (list R) :=
  match k with
  | TetrahedronElastic => tetrahedron_frame nodes
  | HexahedronElastic _ => hexahedron_frame Hexahedron_Linear nodes [0; 0; 0]
  end.

(** The mesh and the rest positions of the mechanical state. *)
Record mesh := { type : elastic; x0 : list (list R); elements : list (list nat) }.

(** T:128-139, H:169-185 *)
Definition gauss_nodes_of (k : elastic) (nodes : list (list R)) : list gauss_node :=
  map (fun g =>
    let J := jacobian 3 (kind_of_elements k) nodes (fst g) in
    let Jinv := inverse J in
    {| weight := snd g; jacobian_determinant := det J;
       dN_dx := map (matvec (transpose 3 Jinv)) (dL (kind_of_elements k) (fst g)) |}) (integration_points k).

(** T:455-465, H:424-434 *)
Definition hooke (youngModulus poissonRatio : R) : list (list R) :=
  let l := youngModulus * poissonRatio / ((1 + poissonRatio) * (1 - 2 * poissonRatio)) in
  let mu := youngModulus / (2 * (1 + poissonRatio)) in
  [ [ l + 2 * mu; l; l; 0; 0; 0 ];
    [ l; l + 2 * mu; l; 0; 0; 0 ];
    [ l; l; l + 2 * mu; 0; 0; 0 ];
    [ 0; 0; 0; mu; 0; 0 ];
    [ 0; 0; 0; 0; mu; 0 ];
    [ 0; 0; 0; 0; 0; mu ] ].
(** T:484-491 and 495-502, H:457-464 and 468-475 *)
Definition Bi (dx : list R) : list (list R) :=
  let d0 := nth 0 dx 0 in let d1 := nth 1 dx 0 in let d2 := nth 2 dx 0 in
  [ [ d0; 0; 0 ]; [ 0; d1; 0 ]; [ 0; 0; d2 ]; [ d1; d0; 0 ]; [ 0; d2; d1 ]; [ d2; 0; d0 ] ].
(** T:504, H:477 *)
Definition gauss_stiffness (C : list (list R)) (i j : nat) (g : gauss_node) : list (list R) :=
  let dxi := nth i (dN_dx g) [] in
  let dxj := nth j (dN_dx g) [] in
  mscale (weight g) (mscale (jacobian_determinant g) (matmul 3 (matmul 6 (transpose 3 (Bi dxi)) C) (Bi dxj))).
(** T:471-507, H:439-480: K.fill(0), then the blocks (i, j) with i <= j are accumulated. *)
Definition element_stiffness (C : list (list R)) (n : nat) (gs : list gauss_node) : list (list R) :=
  map (fun r => map (fun c =>
      if Nat.leb (r / 3) (c / 3) then
        e (fold_left (fun K g => madd K (gauss_stiffness C (r / 3) (c / 3) g)) gs (repeat (repeat 0 3) 3)) (r mod 3) (c mod 3)
      else 0) (seq 0 (n * 3))) (seq 0 (n * 3)).

(** K.selfadjointView<Eigen::Upper>() * U (T:209, H:272): only the upper triangle of K is read. *)
Definition selfadjoint_times (K : list (list R)) (U : list R) : list R :=
  map (fun r => Rsum (map (fun c => (if Nat.leb r c then e K r c else e K c r) * nth c U 0) (seq 0 (length U)))) (seq 0 (length U)).

(** T:194-205, H:257-268 *)
Definition local_displacement (R0 R1 : list (list R)) (x0 x : list (list R)) (node_indices : list nat) : list R :=
  flat_map (fun node => vminus (matvec (transpose 3 R1) (nth node x [])) (matvec (transpose 3 R0) (nth node x0 []))) node_indices.
(** T:253-262, H:316-325 *)
Definition local_increment (R1 : list (list R)) (dx : list (list R)) (node_indices : list nat) : list R :=
  flat_map (fun node => matvec (transpose 3 R1) (nth node dx [])) node_indices.
(** T:212-221, H:275-284: what is added at each node: -(R * force). *)
Definition scatter (R1 : list (list R)) (F : list R) (node_indices : list nat) : list (nat * list R) :=
  map2 (fun node i => (node, map Ropp (matvec R1 [ nth (i * 3) F 0; nth (i * 3 + 1) F 0; nth (i * 3 + 2) F 0 ])))
       node_indices (seq 0 (length node_indices)).

(** The members of a force field (T:127-136, HexahedronElasticForce.h:186-206). *)
Record state := { corotated : bool; youngModulus : R; poissonRatio : R;
                  p_quadrature_nodes : list (list gauss_node); p_stiffness_matrices : list (list (list R));
                  p_initial_rotation : list (list (list R)); p_current_rotation : list (list (list R));
                  p_K : list triplet; K_is_up_to_date : bool }.
Definition fresh (c : bool) (E nu : R) : state :=
  {| corotated := c; youngModulus := E; poissonRatio := nu; p_quadrature_nodes := []; p_stiffness_matrices := [];
     p_initial_rotation := []; p_current_rotation := []; p_K := []; K_is_up_to_date := false |}.

(** std::vector::resize(n, v) *)
Definition resize {A : Type} (l : list A) (n : nat) (v : A) : list A := firstn n l ++ repeat v (n - length l).

(** T:82-147, H:116-211.  The quadrature nodes of the tetrahedra are emptied first (T:98); those of the hexahedra are
    appended to the previous ones (H:147, 168 and 179). *)
Definition reinit (m : mesh) (s : state) : state :=
  let n := length (elements m) in
  let valid := forallb (fun node_indices => forallb (fun node => Nat.ltb node (length (x0 m))) node_indices) (elements m) in
  let rest row := gather (x0 m) row in
  let set q k r0 r1 pk :=
    {| corotated := corotated s; youngModulus := youngModulus s; poissonRatio := poissonRatio s; p_quadrature_nodes := q;
       p_stiffness_matrices := k; p_initial_rotation := r0; p_current_rotation := r1; p_K := p_K s; K_is_up_to_date := pk |} in
  let old := match type m with TetrahedronElastic => [] | HexahedronElastic _ => p_quadrature_nodes s end in
  if negb valid then
    match type m with
    | TetrahedronElastic => set [] [] (p_initial_rotation s) (p_current_rotation s) (K_is_up_to_date s)
    | HexahedronElastic _ => s
    end
  else
    let q := map2 (fun g row => g ++ gauss_nodes_of (type m) (rest row)) (resize old n []) (elements m) in
    let r0 := if corotated s then map (fun row => frame (type m) (rest row)) (elements m) else resize (p_initial_rotation s) n Id3 in
    let r1 := resize (p_current_rotation s) n Id3 in
    let C := hooke (youngModulus s) (poissonRatio s) in
    set q (map (element_stiffness C (NumberOfNodes (kind_of_elements (type m)))) q) r0 r1
        (match type m with TetrahedronElastic => K_is_up_to_date s | HexahedronElastic _ => false end).

(** T:149-224, H:213-287: the rotations and the forces; None is an access out of a vector. *)
Definition addForce (m : mesh) (s : state) (x f : list (list R)) : state * option (list (list R)) :=
  if negb (Nat.eqb (length (p_stiffness_matrices s)) (length (elements m))) then (s, Some f)
  else
    let current := if corotated s then map (fun row => frame (type m) (gather x row)) (elements m) else p_current_rotation s in
    let contributions := concat (map2 (fun row KR => let '(K, (R0, R1)) := KR in
        scatter R1 (selfadjoint_times K (local_displacement R0 R1 (x0 m) x row)) row)
      (elements m) (combine (p_stiffness_matrices s) (combine (p_initial_rotation s) current))) in
    ({| corotated := corotated s; youngModulus := youngModulus s; poissonRatio := poissonRatio s;
        p_quadrature_nodes := p_quadrature_nodes s; p_stiffness_matrices := p_stiffness_matrices s;
        p_initial_rotation := p_initial_rotation s; p_current_rotation := current; p_K := p_K s; K_is_up_to_date := K_is_up_to_date s |},
     add_all f contributions).

(** T:226-282, H:289-345 *)
Definition addDForce (m : mesh) (s : state) (kFactor : R) (dx df : list (list R)) : option (list (list R)) :=
  if negb (Nat.eqb (length (p_stiffness_matrices s)) (length (elements m))) then Some df
  else
    add_all df (concat (map2 (fun row KR => let '(K, R1) := KR in
        scatter R1 (map (fun v => v * kFactor) (selfadjoint_times K (local_increment R1 dx row))) row)
      (elements m) (combine (p_stiffness_matrices s) (p_current_rotation s)))).

(** Block<3,3>(r, c) of a matrix. *)
Definition block3 (K : list (list R)) (r c : nat) : list (list R) :=
  map (fun m => map (fun n => e K (r + m) (c + n)) (seq 0 3)) (seq 0 3).
(** R * k * Rt, multiplied by a number. *)
Definition rotated (R1 k : list (list R)) (a : R) : list (list R) := mscale a (matmul 3 (matmul 3 R1 k) (transpose 3 R1)).
(** matrix->add(row, column, 3x3 block) *)
Definition add_block (row column : nat) (k : list (list R)) : list triplet :=
  flat_map (fun m => map (fun n => ((row + m)%nat, (column + n)%nat, e k m n)) (seq 0 3)) (seq 0 3).

(** T:284-349, H:347-409: the entries added to the matrix.  None: no stiffness or rotation for an element. *)
Definition addKToMatrix (m : mesh) (s : state) (kFact : R) (offset : nat) : option (list triplet) :=
  if (Nat.ltb (length (p_stiffness_matrices s)) (length (elements m)) || Nat.ltb (length (p_current_rotation s)) (length (elements m)))%bool
  then None else
  Some (concat (map2 (fun row KR => let '(K, R1) := KR in
    let n := length row in
    flat_map (fun i => let a := (offset + nth i row 0 * 3)%nat in add_block a a (rotated R1 (block3 K (i * 3) (i * 3)) (-1 * kFact))) (seq 0 n) ++
    flat_map (fun i => flat_map (fun j =>
        let a := (offset + nth i row 0 * 3)%nat in let b := (offset + nth j row 0 * 3)%nat in
        let k := rotated R1 (block3 K (i * 3) (j * 3)) (-1 * kFact) in
        add_block a b k ++ add_block b a (transpose 3 k)) (seq (i + 1) (n - (i + 1)))) (seq 0 n))
    (elements m) (combine (p_stiffness_matrices s) (p_current_rotation s)))).

(** H:487-548 (there is no such function in T).  Ke.block<3,3>(i, j) is the block at row i and column j, not at
    3 i and 3 j, and the blocks below the diagonal are not added.  Simplification: before the first reinit, where the
    code reads out of the vectors, there is no entry; no theorem is about this case. *)
Definition K (m : mesh) (s : state) : state * list triplet :=
  if K_is_up_to_date s then (s, p_K s)
  else
    let ts := concat (map2 (fun row KR => let '(K, R1) := KR in
      let n := length row in
      flat_map (fun i => let a := (nth i row 0 * 3)%nat in add_block a a (rotated R1 (block3 K i i) (-1))) (seq 0 n) ++
      flat_map (fun i => flat_map (fun j =>
          let a := (nth i row 0 * 3)%nat in let b := (nth j row 0 * 3)%nat in
          add_block a b (rotated R1 (block3 K i j) (-1))) (seq (i + 1) (n - (i + 1)))) (seq 0 n))
      (elements m) (combine (p_stiffness_matrices s) (p_current_rotation s))) in
    ({| corotated := corotated s; youngModulus := youngModulus s; poissonRatio := poissonRatio s;
        p_quadrature_nodes := p_quadrature_nodes s; p_stiffness_matrices := p_stiffness_matrices s;
        p_initial_rotation := p_initial_rotation s; p_current_rotation := p_current_rotation s; p_K := ts; K_is_up_to_date := true |}, ts).

(** ** Histories of calls *)
Inductive call :=
  | SetData (c : bool) (E nu : R)  (* the user changes the Data *)
  | Reinit                         (* init() also ends with reinit() *)
  | AddForce (x f : list (list R))
  | AddDForce (k : R) (dx df : list (list R))
  | AddKToMatrix (k : R) (offset : nat)
  | GetK.
Definition step (m : mesh) (s : state) (a : call) : state :=
  match a with
  | SetData c E nu =>
      {| corotated := c; youngModulus := E; poissonRatio := nu; p_quadrature_nodes := p_quadrature_nodes s;
         p_stiffness_matrices := p_stiffness_matrices s; p_initial_rotation := p_initial_rotation s;
         p_current_rotation := p_current_rotation s; p_K := p_K s; K_is_up_to_date := K_is_up_to_date s |}
  | Reinit => reinit m s
  | AddForce x f => fst (addForce m s x f)
  | AddDForce _ _ _ | AddKToMatrix _ _ => s
  | GetK => fst (K m s)
  end.
Definition after (m : mesh) (s : state) (calls : list call) : state := fold_left (step m) calls s.
