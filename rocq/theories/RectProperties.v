(** C19, C20, C21: rectangular elements and local coordinates. *)

From Coq Require Import Reals Lra Lia.
From Coquelicot Require Import Coquelicot.
From Coq Require Import List.
From Flocq Require Import Core.Raux.
From Verif Require Import GridGeoModel ShapeModel ShapeSpec ShapeProofs ShapeFieldProofs ShapeGaussProofs LinAlg RectModel RectSpec
  RectProofs LinAlgProofs NewtonLocalProofs.
Import ListNotations.
Open Scope R_scope.

(** * C19 *)
Theorem C19_hexahedron_local_of_world : forall r xi, well_formed 3 3 r -> length xi = 3%nat ->
  RH_local_coordinates r (RH_world_coordinates r xi) = xi.
Proof. exact rh_local_world. Qed.
Print Assumptions C19_hexahedron_local_of_world.

Theorem C19_hexahedron_world_of_local : forall r x, well_formed 3 3 r -> length x = 3%nat ->
  RH_world_coordinates r (RH_local_coordinates r x) = x.
Proof. exact rh_world_local. Qed.
Print Assumptions C19_hexahedron_world_of_local.

(** Rectangular quads inherit the iterative local_coordinates of all elements.  Missing for the full statement: the
    points within 1e-5 of the centre, which are mapped to the centre (see the refuted theorem below). *)
Theorem C19_quad_local_of_world_partial : forall d e r xi,
  e = RectangularQuad_Linear \/ e = RectangularQuad_Quadratic -> d = 2%nat \/ d = 3%nat ->
  well_formed d 2 r -> length xi = 2%nat ->
  1e-10 <= squared_distance d e (RQ_nodes d e r) (RQ_T d r xi) [0; 0] ->
  local_coordinates d e (RQ_nodes d e r) (RQ_T d r xi) = xi.
Proof. exact rq_local_world. Qed.
Print Assumptions C19_quad_local_of_world_partial.

Definition tilted_box : rectangular :=
  {| p_center := [1; 2; 3]; p_H := [2; 4; 6]; p_R := [[3/5; -4/5; 0]; [4/5; 3/5; 0]; [0; 0; 1]] |}.
Definition unit_square : rectangular := {| p_center := [0; 0]; p_H := [2; 2]; p_R := [[1; 0]; [0; 1]] |}.

Lemma tilted_box_well_formed : well_formed 3 3 tilted_box.
Proof.
  split; [reflexivity|]. split; [reflexivity|]. split; [repeat constructor; lra|].
  split; [split; [reflexivity|repeat constructor]|]. intros i j Hi Hj.
  cases_lt i Hi ltac:(cases_lt j Hj ltac:(cbn; lra)).
Qed.
Lemma unit_square_well_formed : well_formed 2 2 unit_square.
Proof.
  split; [reflexivity|]. split; [reflexivity|]. split; [repeat constructor; lra|].
  split; [split; [reflexivity|repeat constructor]|]. intros i j Hi Hj.
  cases_lt i Hi ltac:(cases_lt j Hj ltac:(cbn; lra)).
Qed.

Example C19_witness : well_formed 3 3 tilted_box /\ well_formed 2 2 unit_square /\
  RH_world_coordinates tilted_box [1; 1; 1] = [0; 4; 6] /\
  1e-10 <= squared_distance 2 RectangularQuad_Linear (RQ_nodes 2 RectangularQuad_Linear unit_square)
             (RQ_T 2 unit_square [1/2; 1/3]) [0; 0].
Proof.
  split; [exact tilted_box_well_formed|]. split; [exact unit_square_well_formed|]. split.
  - unfold RH_world_coordinates. unfold tilted_box. vec_unfold. repeat (apply (f_equal2 (@cons R)); [field|]). reflexivity.
  - unfold squared_distance. rewrite rq_world_nodal2 by (auto using unit_square_well_formed).
    unfold RQ_T, unit_square. vec_unfold. lra.
Qed.

Theorem C19_quad_near_centre_refuted : exists d e r xi,
  (e = RectangularQuad_Linear \/ e = RectangularQuad_Quadratic) /\ well_formed d 2 r /\ length xi = 2%nat /\
  local_coordinates d e (RQ_nodes d e r) (RQ_T d r xi) <> xi.
Proof.
  exists 2%nat, RectangularQuad_Linear, unit_square, [1e-6; 0].
  split; [left; reflexivity|]. split; [exact unit_square_well_formed|]. split; [reflexivity|].
  unfold local_coordinates, local_coordinates_from. rewrite Rlt_bool_true.
  - intros H. cbn [CanonicalDimension repeat] in H. injection H as H. lra.
  - cbn [CanonicalDimension repeat]. rewrite residual_is_distance. unfold squared_distance.
    rewrite rq_world_nodal2 by (auto using unit_square_well_formed). unfold RQ_T, unit_square. vec_unfold. lra.
Qed.
Print Assumptions C19_quad_near_centre_refuted.

(** * C20 *)
Theorem C20_hexahedron_nodal : forall e r xi,
  e = RectangularHexahedron_Linear \/ e = RectangularHexahedron_Quadratic ->
  well_formed 3 3 r -> length xi = 3%nat ->
  world_coordinates 3 e (RH_nodes e r) xi = RH_world_coordinates r xi.
Proof. exact rh_world_nodal. Qed.
Print Assumptions C20_hexahedron_nodal.

Theorem C20_quad_nodal : forall d e r xi, d = 2%nat \/ d = 3%nat ->
  e = RectangularQuad_Linear \/ e = RectangularQuad_Quadratic ->
  well_formed d 2 r -> length xi = 2%nat ->
  world_coordinates d e (RQ_nodes d e r) xi = RQ_T d r xi.
Proof. intros d e r xi [-> | ->]; [apply rq_world_nodal2|apply rq_world_nodal3]. Qed.
Print Assumptions C20_quad_nodal.

(** The jacobian is the frame scaled by the half sizes, whatever the point. *)
Theorem C20_hexahedron_jacobian : forall e r xi,
  e = RectangularHexahedron_Linear \/ e = RectangularHexahedron_Quadratic ->
  well_formed 3 3 r -> length xi = 3%nat ->
  jacobian 3 e (RH_nodes e r) xi = map (fun row => cwiseProduct row (half_size r)) (p_R r).
Proof. exact rh_jacobian. Qed.
Print Assumptions C20_hexahedron_jacobian.

Theorem C20_hexahedron_jacobian_determinant : forall e r xi h1 h2 h3,
  e = RectangularHexahedron_Linear \/ e = RectangularHexahedron_Quadratic ->
  well_formed 3 3 r -> length xi = 3%nat -> p_H r = [h1; h2; h3] ->
  Rabs (det (jacobian 3 e (RH_nodes e r) xi)) = Rabs (h1 / 2 * (h2 / 2) * (h3 / 2)).
Proof. exact rh_jacobian_det. Qed.
Print Assumptions C20_hexahedron_jacobian_determinant.

(** Building a rectangular hexahedron from the nodes of one gives the same center, sizes and frame. *)
Theorem C20_hexahedron_fit_round_trip : forall e r,
  e = RectangularHexahedron_Linear \/ e = RectangularHexahedron_Quadratic ->
  well_formed 3 3 r -> Forall (fun h => 0 < h) (p_H r) -> det (p_R r) = 1 ->
  RectangularHexahedron_of e (RH_nodes e r) = r.
Proof. exact rh_fit. Qed.
Print Assumptions C20_hexahedron_fit_round_trip.

Example C20_witness : well_formed 3 3 tilted_box /\ Forall (fun h => 0 < h) (p_H tilted_box) /\ det (p_R tilted_box) = 1.
Proof. split; [exact tilted_box_well_formed|]. split; [repeat constructor; lra|]. unfold det, tilted_box. cbn [p_R]. field. Qed.

(** * C21 *)

(** On an affine element any tolerance, any number of iterations, any start far enough: exact pre-image. *)
Theorem C21_affine_exact : forall d e nodes x0 E start tol n xi, table (NumberOfNodes e) d nodes ->
  affine_element d e nodes x0 E -> independent (CanonicalDimension e) E ->
  length start = CanonicalDimension e -> length xi = CanonicalDimension e ->
  tol * tol <= squared_distance d e nodes (world_coordinates d e nodes xi) start ->
  local_coordinates_from d e nodes (world_coordinates d e nodes xi) start tol n = xi.
Proof. exact newton_affine_exact. Qed.
Print Assumptions C21_affine_exact.

(** Linear segments, triangles and tetrahedra in a space of any dimension are affine. *)
Theorem C21_linear_simplices_affine : forall d e nodes,
  e = Segment_Linear \/ e = Triangle_Linear \/ e = Tetrahedron_Linear ->
  table (NumberOfNodes e) d nodes ->
  exists x0 E, affine_element d e nodes x0 E.
Proof. intros d e nodes He Hn. do 2 eexists. exact (linear_simplices_affine d e nodes He Hn). Qed.
Print Assumptions C21_linear_simplices_affine.

(** Query points that are not on the element's plane or line are projected: the answer is the closest point. *)
Theorem C21_affine_closest_point : forall d e nodes x0 E start tol n x xi, table (NumberOfNodes e) d nodes ->
  affine_element d e nodes x0 E -> independent (CanonicalDimension e) E -> d <> CanonicalDimension e ->
  length start = CanonicalDimension e -> length x = d -> length xi = CanonicalDimension e ->
  tol * tol <= squared_distance d e nodes x start ->
  squared_distance d e nodes x (local_coordinates_from d e nodes x start tol n) <= squared_distance d e nodes x xi.
Proof. exact newton_affine_projection. Qed.
Print Assumptions C21_affine_closest_point.

(** Every element, affine or not: either the start is already within the tolerance and is returned, or between one
    and max(1, n) Newton updates are made, and fewer than that only when the last residual is tol times the first. *)
Theorem C21_result_partial : forall d e nodes x start tol n,
  let xi := local_coordinates_from d e nodes x start tol n in
  (xi = start /\ squared_distance d e nodes x start < tol * tol) \/
  (tol * tol <= squared_distance d e nodes x start /\
   exists m, (1 <= m <= Nat.max 1 n)%nat /\ xi = Nat.iter m (newton_step d e nodes x) start /\
    (m = Nat.max 1 n \/ squared_distance d e nodes x xi < squared_distance d e nodes x start * (tol * tol))).
Proof. exact local_coordinates_result. Qed.
Print Assumptions C21_result_partial.

(** The part that fails: the tolerance on the first residual is absolute (1e-5).  On a segment of length 2e-6, a point
    two lengths away from it gets the local coordinate of the centre and is reported inside. *)
Theorem C21_far_point_mapped_to_centre_refuted : exists nodes x xi,
  table (NumberOfNodes Segment_Linear) 1 nodes /\
  x = world_coordinates 1 Segment_Linear nodes xi /\ xi <> [0] /\
  ~ in_reference Segment_Linear 0 xi /\
  local_coordinates 1 Segment_Linear nodes x = [0] /\
  contains_local Segment_Linear (local_coordinates 1 Segment_Linear nodes x) 1e-10 = Some true.
Proof.
  exists [[0]; [2e-6]], [5e-6], [4].
  assert (L : local_coordinates 1 Segment_Linear [[0]; [2e-6]] [5e-6] = [0]).
  { unfold local_coordinates, local_coordinates_from. rewrite Rlt_bool_true; [reflexivity|].
    rewrite residual_is_distance. unfold squared_distance, world_coordinates, interpolate. unfold_shape. vec_unfold. cbn [repeat nth]. lra. }
  rewrite L. split; [split; [reflexivity|repeat constructor]|]. split.
  { unfold world_coordinates, interpolate. unfold_shape. vec_unfold. f_equal. lra. }
  split; [intros H; injection H; lra|]. split.
  { intros [_ H]. cbn in H. inversion H. lra. }
  split; [reflexivity|]. cbn -[IN_CLOSED_INTERVAL].
  f_equal. unfold IN_CLOSED_INTERVAL. apply Rle_bool_true. lra.
Qed.
Print Assumptions C21_far_point_mapped_to_centre_refuted.

(** A triangle in space, not axis aligned. *)
Example C21_witness :
  let nodes := [[0; 0; 0]; [1; 0; 1]; [0; 2; 1]] in
  table 3 3 nodes /\
  independent 2 (simplex_directions 3 Triangle_Linear nodes) /\
  1e-10 <= squared_distance 3 Triangle_Linear nodes (world_coordinates 3 Triangle_Linear nodes [1/3; 1/3]) [0; 0].
Proof.
  split; [split; [reflexivity|repeat constructor]|]. split.
  - unfold independent, det, gram, simplex_directions, column. cbn. lra.
  - unfold squared_distance, world_coordinates, interpolate. unfold_shape. vec_unfold. lra.
Qed.
