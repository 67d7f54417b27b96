(** C11-C18, C22, C25, C26: shape functions, jacobians, quadrature, containment and boundary tables of the
    fourteen element types.  The vocabulary is in ShapeSpec.v; the model of the code is ShapeModel.v. *)

From Coq Require Import Reals Lra Lia.
From Coquelicot Require Import Coquelicot.
From Coq Require Import List.
From Verif Require Import ShapeModel ShapeSpec ShapeProofs ShapeFieldProofs ShapeGaussProofs ShapeBoundaryProofs.
Import ListNotations.
Open Scope R_scope.

(** * C11: partition of unity, at every local point (inside the element or not). *)
Theorem C11_partition_of_unity : forall e xi, length xi = CanonicalDimension e -> Rsum (L e xi) = 1.
Proof. exact partition_of_unity. Qed.
Print Assumptions C11_partition_of_unity.

Theorem C11_derivatives_sum_to_zero : forall e xi k, length xi = CanonicalDimension e ->
  (k < CanonicalDimension e)%nat -> Rsum (map (fun d => nth k d 0) (dL e xi)) = 0.
Proof. exact derivatives_sum_to_zero. Qed.
Print Assumptions C11_derivatives_sum_to_zero.

Example C11_witness : Rsum (L Triangle_Quadratic [1/5; 3]) = 1 /\ nth 4 (L Triangle_Quadratic [1/5; 3]) 0 = 12/5.
Proof. split; [apply C11_partition_of_unity; reflexivity|cbn; lra]. Qed.

(** * C12: every shape function is one at its own node and zero at the others; the element interpolates. *)
Theorem C12_kronecker : forall e i j, (i < NumberOfNodes e)%nat -> (j < NumberOfNodes e)%nat ->
  nth i (L e (nth j (canonical_nodes e) [])) 0 = if Nat.eq_dec i j then 1 else 0.
Proof. exact kronecker. Qed.
Print Assumptions C12_kronecker.

Theorem C12_world_coordinates_at_nodes : forall d e nodes j, table (NumberOfNodes e) d nodes ->
  (j < NumberOfNodes e)%nat ->
  world_coordinates d e nodes (nth j (canonical_nodes e) []) = nth j nodes [].
Proof. intros d e. exact (world_at_node e d). Qed.
Print Assumptions C12_world_coordinates_at_nodes.

Example C12_witness : nth 9 (L Hexahedron_Quadratic [1; 0; -1]) 0 = 1 /\ nth 2 (L Hexahedron_Quadratic [1; 0; -1]) 0 = 0.
Proof.
  split; [apply (C12_kronecker Hexahedron_Quadratic 9 9) | apply (C12_kronecker Hexahedron_Quadratic 2 9)]; simpl; lia.
Qed.

(** * C13: dL is the matrix of partial derivatives of L. *)
Theorem C13_shape_derivative : forall e i k xi, length xi = CanonicalDimension e ->
  (i < NumberOfNodes e)%nat -> (k < CanonicalDimension e)%nat ->
  partial_derivative (fun x => nth i (L e x) 0) k xi (nth k (nth i (dL e xi) []) 0).
Proof. exact shape_derivative. Qed.
Print Assumptions C13_shape_derivative.

Theorem C13_derivative_matrix_size : forall e xi,
  length (dL e xi) = NumberOfNodes e /\
  forall i, (i < NumberOfNodes e)%nat -> length (nth i (dL e xi) []) = CanonicalDimension e.
Proof. intros e xi. split; [apply length_dL|]. intros i. apply length_dL_row. Qed.
Print Assumptions C13_derivative_matrix_size.

Example C13_witness : is_derive (fun t => nth 3 (L Quad_Quadratic [t; 1/2]) 0) 2 (nth 0 (nth 3 (dL Quad_Quadratic [2; 1/2]) []) 0).
Proof. apply (C13_shape_derivative Quad_Quadratic 3 0 [2; 1/2]); simpl; (reflexivity || lia). Qed.

(** * C14: the jacobian is the matrix of partial derivatives of the world coordinates, for any position of the
      nodes and any world dimension. *)
Theorem C14_jacobian_is_derivative : forall d e nodes xi c k, table (NumberOfNodes e) d nodes ->
  length xi = CanonicalDimension e -> (c < d)%nat -> (k < CanonicalDimension e)%nat ->
  partial_derivative (fun x => nth c (world_coordinates d e nodes x) 0) k xi
    (nth k (nth c (jacobian d e nodes xi) []) 0).
Proof. exact jacobian_derivative. Qed.
Print Assumptions C14_jacobian_is_derivative.

(** A bent triangle in space. *)
Example C14_witness :
  let nodes := [[0; 0; 0]; [2; 0; 1]; [0; 3; 0]; [1; -1; 0]; [1; 1; 1]; [0; 1; 0]] in
  table (NumberOfNodes Triangle_Quadratic) 3 nodes /\
  nth 1 (nth 2 (jacobian 3 Triangle_Quadratic nodes [1/4; 1/4]) []) 0 = 1.
Proof. split; [split; [reflexivity|repeat constructor]|cbn; lra]. Qed.

(** * C15: affine fields are reproduced exactly on any element, whatever the node positions. *)
Theorem C15_affine_reproduction : forall d e nodes xi c b, table (NumberOfNodes e) d nodes ->
  length xi = CanonicalDimension e -> length b = d ->
  interpolate 1 e xi (map (fun x => [affine c b x]) nodes) = [affine c b (world_coordinates d e nodes xi)].
Proof. exact affine_reproduction. Qed.
Print Assumptions C15_affine_reproduction.

Example C15_witness :
  interpolate 1 Quad_Linear [1/2; -1/3] (map (fun x => [affine 3 [1; 2] x]) [[0; 0]; [4; 1]; [5; 3]; [0; 2]])
  = [affine 3 [1; 2] (world_coordinates 2 Quad_Linear [[0; 0]; [4; 1]; [5; 3]; [0; 2]] [1/2; -1/3])].
Proof. apply C15_affine_reproduction; try reflexivity. split; [reflexivity|repeat constructor]. Qed.

(** * C16: quadratic elements reproduce quadratic fields, tensor product elements multilinear ones. *)
Theorem C16_quadratic_reproduction : forall e xi c b A, is_quadratic e = true ->
  length xi = CanonicalDimension e -> length b = CanonicalDimension e -> square (CanonicalDimension e) A ->
  interpolate 1 e xi (map (fun x => [quadratic c b A x]) (canonical_nodes e)) = [quadratic c b A xi].
Proof. exact quadratic_reproduction. Qed.
Print Assumptions C16_quadratic_reproduction.

Theorem C16_bilinear_reproduction : forall e a0 a1 a2 a3 u v, e = Quad_Linear \/ e = RectangularQuad_Linear ->
  let p x := a0 + a1 * nth 0 x 0 + a2 * nth 1 x 0 + a3 * nth 0 x 0 * nth 1 x 0 in
  interpolate 1 e [u; v] (map (fun x => [p x]) (canonical_nodes e)) = [p [u; v]].
Proof. exact bilinear_reproduction. Qed.
Print Assumptions C16_bilinear_reproduction.

Theorem C16_trilinear_reproduction : forall e a0 a1 a2 a3 a4 a5 a6 a7 u v w,
  e = Hexahedron_Linear \/ e = RectangularHexahedron_Linear ->
  let p x := let u := nth 0 x 0 in let v := nth 1 x 0 in let w := nth 2 x 0 in
    a0 + a1 * u + a2 * v + a3 * w + a4 * u * v + a5 * v * w + a6 * u * w + a7 * u * v * w in
  interpolate 1 e [u; v; w] (map (fun x => [p x]) (canonical_nodes e)) = [p [u; v; w]].
Proof. exact trilinear_reproduction. Qed.
Print Assumptions C16_trilinear_reproduction.

Example C16_witness :
  interpolate 1 Hexahedron_Quadratic [1/2; 1/3; -1] (map (fun x => [quadratic 1 [1; 0; 2] [[1; 2; 0]; [0; 0; 3]; [1; 0; 5]] x])
    (canonical_nodes Hexahedron_Quadratic)) = [quadratic 1 [1; 0; 2] [[1; 2; 0]; [0; 0; 3]; [1; 0; 5]] [1/2; 1/3; -1]].
Proof. apply C16_quadratic_reproduction; try reflexivity. split; [reflexivity|repeat constructor]. Qed.

(** * C17: quadrature. *)
Theorem C17_segment_linear : forall c b,
  quadrature Segment_Linear (affine c [b]) = reference_integral Segment_Linear (affine c [b]).
Proof. exact segment_linear_exact. Qed.
Print Assumptions C17_segment_linear.

Theorem C17_segment_quadratic : forall a,
  quadrature Segment_Quadratic (cubic1_field a) = reference_integral Segment_Quadratic (cubic1_field a).
Proof. exact segment_exact. Qed.
Print Assumptions C17_segment_quadratic.

Theorem C17_quads : forall e a,
  e = Quad_Linear \/ e = Quad_Quadratic \/ e = RectangularQuad_Linear \/ e = RectangularQuad_Quadratic ->
  quadrature e (cubic2_field a) = reference_integral e (cubic2_field a).
Proof. exact quad_exact. Qed.
Print Assumptions C17_quads.

Theorem C17_hexahedra : forall e a,
  e = Hexahedron_Linear \/ e = Hexahedron_Quadratic \/
  e = RectangularHexahedron_Linear \/ e = RectangularHexahedron_Quadratic ->
  quadrature e (cubic3_field a) = reference_integral e (cubic3_field a).
Proof. exact hexahedron_exact. Qed.
Print Assumptions C17_hexahedra.

Theorem C17_triangle_linear : forall c b, length b = 2%nat ->
  quadrature Triangle_Linear (affine c b) = reference_integral Triangle_Linear (affine c b).
Proof. exact triangle_linear_exact. Qed.
Print Assumptions C17_triangle_linear.

Theorem C17_triangle_quadratic : forall c b A, length b = 2%nat -> square 2 A ->
  quadrature Triangle_Quadratic (quadratic c b A) = reference_integral Triangle_Quadratic (quadratic c b A).
Proof. exact triangle_quadratic_exact. Qed.
Print Assumptions C17_triangle_quadratic.

Theorem C17_tetrahedra_affine : forall e c b, e = Tetrahedron_Linear \/ e = Tetrahedron_Quadratic ->
  length b = 3%nat -> quadrature e (affine c b) = reference_integral e (affine c b).
Proof. exact tetrahedron_affine_exact. Qed.
Print Assumptions C17_tetrahedra_affine.

(** The rule of the quadratic tetrahedron is written with 16 digit decimal literals.  As real numbers these do
    not integrate quadratics exactly; the error is below 1e-17 times the size of the second order part. *)
Theorem C17_tetrahedron_quadratic_error_partial : forall c b A, length b = 3%nat -> square 3 A ->
  Rabs (quadrature Tetrahedron_Quadratic (quadratic c b A)
        - reference_integral Tetrahedron_Quadratic (quadratic c b A))
  <= Rsum (map (fun row => Rsum (map Rabs row)) A) * 1e-17.
Proof. exact tetrahedron_quadratic_error. Qed.
Print Assumptions C17_tetrahedron_quadratic_error_partial.

Theorem C17_tetrahedron_quadratic_exact_refuted : exists c b A, length b = 3%nat /\ square 3 A /\
  quadrature Tetrahedron_Quadratic (quadratic c b A) <> reference_integral Tetrahedron_Quadratic (quadratic c b A).
Proof.
  exists 0, [0; 0; 0], [[1; 0; 0]; [0; 0; 0]; [0; 0; 0]].
  split; [reflexivity|]. split; [split; [reflexivity|repeat constructor]|]. exact tetrahedron_quadratic_not_exact.
Qed.
Print Assumptions C17_tetrahedron_quadratic_exact_refuted.

Theorem C17_weights : forall e,
  Rsum (map snd (gauss_nodes e)) = reference_integral e (fun _ => 1) /\
  (forall g, In g (gauss_nodes e) -> 0 < snd g).
Proof. intros e. split; [rewrite measure_is_integral; apply weights_sum|apply weights_positive]. Qed.
Print Assumptions C17_weights.

Theorem C17_nodes_interior : forall e g, In g (gauss_nodes e) -> in_open_reference e 0 (fst g).
Proof. exact gauss_interior. Qed.
Print Assumptions C17_nodes_interior.

Example C17_witness : quadrature Triangle_Quadratic (quadratic 0 [0; 0] [[0; 1]; [0; 0]]) = 1 / 24 /\
  reference_measure Tetrahedron_Quadratic = 1 / 6.
Proof. split; [unfold quadrature, quadratic; cbn; lra|reflexivity]. Qed.

(** * C18: the number of Gauss nodes is the announced one, except for two types. *)
Theorem C18_gauss_count_partial : forall e, e <> RectangularQuad_Quadratic -> e <> RectangularHexahedron_Quadratic ->
  length (gauss_nodes e) = NumberOfGaussNodes e.
Proof. exact gauss_count. Qed.
Print Assumptions C18_gauss_count_partial.

Theorem C18_gauss_count_refuted :
  (length (gauss_nodes RectangularQuad_Quadratic) = 4%nat /\ NumberOfGaussNodes RectangularQuad_Quadratic = 8%nat) /\
  (length (gauss_nodes RectangularHexahedron_Quadratic) = 8%nat /\
   NumberOfGaussNodes RectangularHexahedron_Quadratic = 4%nat).
Proof. repeat split. Qed.
Print Assumptions C18_gauss_count_refuted.

(** * C22: containment.  Segments, quads and hexahedra: the closed enlarged box.  Simplices: the open enlarged
      simplex.  Hence with a positive tolerance every point of the closed domain is accepted; with tolerance
      zero a triangle or tetrahedron does not contain its own nodes. *)
Theorem C22_contains_tensor : forall e xi eps, simplex e = false ->
  e <> RectangularQuad_Linear -> e <> RectangularQuad_Quadratic ->
  0 <= eps -> length xi = CanonicalDimension e ->
  (contains_local e xi eps = Some true <-> in_reference e eps xi).
Proof. exact contains_tensor. Qed.
Print Assumptions C22_contains_tensor.

Theorem C22_contains_simplex_partial : forall e xi eps, simplex e = true -> length xi = CanonicalDimension e ->
  (contains_local e xi eps = Some true <-> in_open_reference e eps xi).
Proof. exact contains_simplex. Qed.
Print Assumptions C22_contains_simplex_partial.

Theorem C22_contains_shape_functions : forall e xi eps, e = Triangle_Linear \/ e = Tetrahedron_Linear ->
  length xi = CanonicalDimension e ->
  (contains_local e xi eps = Some true <-> Forall (fun l => - eps < l) (L e xi)).
Proof. exact contains_simplex_shape. Qed.
Print Assumptions C22_contains_shape_functions.

Theorem C22_closed_domain_contained : forall e xi eps, 0 < eps -> length xi = CanonicalDimension e ->
  e <> RectangularQuad_Linear -> e <> RectangularQuad_Quadratic ->
  in_reference e 0 xi -> contains_local e xi eps = Some true.
Proof. exact contains_closed. Qed.
Print Assumptions C22_closed_domain_contained.

Theorem C22_closed_domain_at_zero_refuted :
  in_reference Triangle_Linear 0 [0; 0] /\ contains_local Triangle_Linear [0; 0] 0 = Some false.
Proof.
  split.
  - split; [reflexivity|]. cbn. split; [repeat constructor; lra|lra].
  - destruct (contains_local Triangle_Linear [0; 0] 0) as [[]|] eqn:E; try reflexivity.
    + apply C22_contains_simplex_partial in E; [|reflexivity|reflexivity].
      destruct E as [_ [E _]]. inversion E; subst. lra.
    + discriminate.
Qed.
Print Assumptions C22_closed_domain_at_zero_refuted.

Example C22_witness : contains_local Hexahedron_Linear [1; -1; 1/2] 0 = Some true /\
  contains_local Tetrahedron_Quadratic [0; 1/2; 1/2] 1e-10 = Some true.
Proof.
  split.
  - apply C22_contains_tensor; try reflexivity; try discriminate; try lra.
    split; [reflexivity|]. cbn. repeat constructor; lra.
  - apply C22_closed_domain_contained; try reflexivity; try discriminate; try lra.
    split; [reflexivity|]. cbn. split; [repeat constructor; lra|lra].
Qed.

(** * C25: the quadratic element built from a linear one has the same geometry. *)
Theorem C25_quadratic_of_linear : forall d e nodes e' nodes' xi,
  table (NumberOfNodes e) d nodes -> length xi = CanonicalDimension e ->
  quadratic_of_linear d e nodes = Some (e', nodes') ->
  table (NumberOfNodes e') d nodes' /\ CanonicalDimension e' = CanonicalDimension e /\
  world_coordinates d e' nodes' xi = world_coordinates d e nodes xi.
Proof. exact quadratic_of_linear_same_geometry. Qed.
Print Assumptions C25_quadratic_of_linear.

Example C25_witness : exists nodes',
  quadratic_of_linear 3 Tetrahedron_Linear [[0; 0; 0]; [2; 0; 1]; [0; 3; 0]; [1; -1; 4]]
  = Some (Tetrahedron_Quadratic, nodes').
Proof. eexists. reflexivity. Qed.

(** * C26: boundary tables. *)
Theorem C26_face_count : forall e, length (boundary_elements_node_indices e) = NumberOfBoundaryElements e.
Proof. exact face_count. Qed.
Print Assumptions C26_face_count.

Theorem C26_faces_well_formed : forall e be face, BoundaryElementType e = Some be ->
  In face (boundary_elements_node_indices e) ->
  length face = NumberOfNodes be /\ NoDup face /\ Forall (fun i => (i < NumberOfNodes e)%nat) face.
Proof. exact face_size. Qed.
Print Assumptions C26_faces_well_formed.

(** The reference domain is the intersection of the half spaces of its sides, and face k lists exactly the
    nodes on side k. *)
Theorem C26_sides_bound_the_domain : forall e xi, sides e <> [] -> length xi = CanonicalDimension e ->
  (in_reference e 0 xi <-> Forall (fun s => 0 <= s xi) (sides e)).
Proof. exact sides_bound_domain. Qed.
Print Assumptions C26_sides_bound_the_domain.

Theorem C26_face_is_side_partial : forall e k i, e <> RectangularHexahedron_Quadratic ->
  (k < NumberOfBoundaryElements e)%nat -> (i < NumberOfNodes e)%nat ->
  (In i (nth k (boundary_elements_node_indices e) []) <->
   nth k (sides e) (fun _ => 1) (nth i (canonical_nodes e) []) = 0).
Proof. exact face_is_side. Qed.
Print Assumptions C26_face_is_side_partial.

Theorem C26_faces_outward_partial : forall e k xi, e <> RectangularHexahedron_Quadratic ->
  (k < NumberOfBoundaryElements e)%nat -> in_open_reference e 0 xi ->
  let points := pick (canonical_nodes e) (nth k (boundary_elements_node_indices e) []) in
  dot (face_normal points) (vsub xi (nth 0 points [])) < 0.
Proof. exact faces_outward. Qed.
Print Assumptions C26_faces_outward_partial.

(** On a face the interpolated field is the one the boundary element interpolates from the values at the nodes
    of the face alone: two elements that share a face agree on it. *)
Theorem C26_face_trace_partial : forall e be k eta NbCols values, e <> RectangularHexahedron_Quadratic ->
  BoundaryElementType e = Some be ->
  (k < NumberOfBoundaryElements e)%nat -> length eta = CanonicalDimension be ->
  length values = NumberOfNodes e ->
  let face := nth k (boundary_elements_node_indices e) [] in
  let xi := world_coordinates (CanonicalDimension e) be (pick (canonical_nodes e) face) eta in
  interpolate NbCols e xi values = interpolate NbCols be eta (pick values face).
Proof. exact face_trace. Qed.
Print Assumptions C26_face_trace_partial.

Theorem C26_edge_trace : forall e k eta NbCols values, (2 <= CanonicalDimension e)%nat ->
  (k < length (edges e))%nat -> length values = NumberOfNodes e ->
  let edge := nth k (edges e) [] in
  let xi := world_coordinates (CanonicalDimension e) (edge_type e) (pick (canonical_nodes e) edge) [eta] in
  interpolate NbCols e xi values = interpolate NbCols (edge_type e) [eta] (pick values edge).
Proof. exact edge_trace. Qed.
Print Assumptions C26_edge_trace.

Theorem C26_edges_are_face_intersections : forall e edge, CanonicalDimension e = 3%nat ->
  e <> RectangularHexahedron_Quadratic -> In edge (edges e) ->
  exists i j, (i < j < NumberOfBoundaryElements e)%nat /\
    forall n, In n edge <-> In n (nth i (boundary_elements_node_indices e) []) /\
                            In n (nth j (boundary_elements_node_indices e) []).
Proof. exact edges_are_intersections. Qed.
Print Assumptions C26_edges_are_face_intersections.

Theorem C26_face_intersections_are_edges : forall e i j, CanonicalDimension e = 3%nat ->
  e <> RectangularHexahedron_Quadratic -> (i < j < NumberOfBoundaryElements e)%nat ->
  (exists n, In n (nth i (boundary_elements_node_indices e) []) /\
             In n (nth j (boundary_elements_node_indices e) [])) ->
  exists k, (k < length (edges e))%nat /\
    (forall n, In n (nth k (edges e) []) <-> In n (nth i (boundary_elements_node_indices e) []) /\
                                             In n (nth j (boundary_elements_node_indices e) [])) /\
    (forall k', (k' < length (edges e))%nat ->
       (forall n, In n (nth k' (edges e) []) <-> In n (nth k (edges e) [])) -> k' = k).
Proof. exact intersections_are_edges. Qed.
Print Assumptions C26_face_intersections_are_edges.

(** The quadratic rectangular hexahedron lists node 13 = (1, 0, 1) on the face w = -1. *)
Theorem C26_rectangular_hexahedron_quadratic_refuted : exists k i,
  (k < NumberOfBoundaryElements RectangularHexahedron_Quadratic)%nat /\
  In i (nth k (boundary_elements_node_indices RectangularHexahedron_Quadratic) []) /\
  nth k (sides RectangularHexahedron_Quadratic) (fun _ => 1)
        (nth i (canonical_nodes RectangularHexahedron_Quadratic) []) <> 0.
Proof.
  exists 0%nat, 13%nat. destruct rectangular_hexahedron_quadratic_face_off as [H1 H2].
  split; [simpl; lia|]. split; [exact H1|]. rewrite H2. lra.
Qed.
Print Assumptions C26_rectangular_hexahedron_quadratic_refuted.

Example C26_witness :
  nth 3 (boundary_elements_node_indices Tetrahedron_Quadratic) [] = [3; 1; 2; 8; 5; 9]%nat /\
  in_open_reference Tetrahedron_Quadratic 0 [1/5; 1/5; 1/5].
Proof. split; [reflexivity|]. split; [reflexivity|]. cbn. split; [repeat constructor; lra|lra]. Qed.
