(** C23, C24: segments and triangles against rectangular hexahedra.  Vocabulary: IntersectSpec.v. *)

From Coq Require Import Reals Lra Lia List.
From Flocq Require Import Core.Raux.
From Verif Require Import GridGeoModel ShapeModel ShapeSpec ShapeProofs LinAlg RectModel RectSpec RectProofs
  IntersectModel IntersectSpec IntersectSegmentProofs IntersectTriangleProofs RectProperties.
Import ListNotations.
Open Scope R_scope.

(** * C23 *)
Theorem C23_segment_box_exact : forall r a b, well_formed 3 3 r -> length a = 3%nat -> length b = 3%nat ->
  (RH_intersects_segment r a b 0 = true <-> exists x, on_segment a b x /\ in_box r x).
Proof. exact rh_segment_exact. Qed.
Print Assumptions C23_segment_box_exact.

(** With any tolerance no intersection is missed. *)
Theorem C23_segment_box_no_miss : forall r a b x eps, well_formed 3 3 r -> length a = 3%nat -> length b = 3%nat ->
  0 <= eps -> on_segment a b x -> in_box r x -> RH_intersects_segment r a b eps = true.
Proof. exact rh_segment_no_miss. Qed.
Print Assumptions C23_segment_box_no_miss.

(** * C24 *)
Theorem C24_triangle_box_exact : forall r a b c, well_formed 3 3 r ->
  length a = 3%nat -> length b = 3%nat -> length c = 3%nat ->
  (RH_intersects_triangle r [a; b; c] 0 = true <-> exists x, on_triangle a b c x /\ in_box r x).
Proof. exact rh_triangle_exact. Qed.
Print Assumptions C24_triangle_box_exact.

(** The box of the model is the one of the element's containment test. *)
Theorem C24_box_is_contains_local : forall r x, well_formed 3 3 r -> length x = 3%nat ->
  (in_box r x <-> contains_local RectangularHexahedron_Linear (RH_local_coordinates r x) 0 = Some true).
Proof.
  intros r x W Hx. rewrite in_box_local by assumption.
  rewrite ShapeGaussProofs.contains_tensor; try reflexivity; try discriminate; try lra;
    [|apply RH_local_length; assumption].
  pose proof (RH_local_length r x W Hx) as L. apply len3 in L. destruct L as (u & v & w & ->).
  unfold in_cube, in_reference. cbn [simplex CanonicalDimension]. split; intros [L H]; (split; [exact L|]);
    (eapply Forall_impl; [|exact H]); intros; cbn in *; lra.
Qed.
Print Assumptions C24_box_is_contains_local.

(** The tilted box of RectProperties: center (1, 2, 3), sizes 2, 4, 6. *)
Example C23_witness : RH_intersects_segment tilted_box [-10; 2; 3] [10; 2; 3] 0 = true /\
  RH_intersects_segment tilted_box [10; 2; 3] [20; 2; 3] 0 = false.
Proof.
  split.
  - apply C23_segment_box_exact; [exact tilted_box_well_formed|reflexivity|reflexivity|].
    exists [1; 2; 3]. split.
    + exists (11 / 20). split; [lra|]. unfold vadd, vscale. cbn [map map2].
      repeat (apply (f_equal2 (@cons R)); [field|]). reflexivity.
    + exists [0; 0; 0]. split; [split; [reflexivity|repeat (apply Forall_cons || apply Forall_nil); lra]|].
      unfold RH_world_coordinates, tilted_box. vec_unfold. repeat (apply (f_equal2 (@cons R)); [field|]). reflexivity.
  - destruct (RH_intersects_segment tilted_box [10; 2; 3] [20; 2; 3] 0) eqn:E; [|reflexivity]. exfalso.
    apply C23_segment_box_exact in E; [|exact tilted_box_well_formed|reflexivity|reflexivity].
    destruct E as (x & (t & Ht & ->) & (xi & [L H] & E)).
    apply len3 in L. destruct L as (u & v & w & ->).
    inversion H as [|? ? U H1]; subst. inversion H1 as [|? ? V H2]; subst.
    unfold RH_world_coordinates, tilted_box in E. revert E. vec_unfold. intros E. injection E as E0 _ _. lra.
Qed.

(** A large triangle crossing the box with its three edges outside of it. *)
Example C24_witness : RH_intersects_triangle tilted_box [[-99; -98; 3]; [101; -98; 3]; [1; 202; 3]] 0 = true.
Proof.
  apply C24_triangle_box_exact; [exact tilted_box_well_formed|reflexivity|reflexivity|reflexivity|].
  exists [1; 2; 3]. split.
  - exists (1/3), (1/3), (1/3). repeat split; try lra. unfold vadd, vscale. cbn [map map2].
    repeat (apply (f_equal2 (@cons R)); [field|]). reflexivity.
  - exists [0; 0; 0]. split; [split; [reflexivity|repeat (apply Forall_cons || apply Forall_nil); lra]|].
    unfold RH_world_coordinates, tilted_box. vec_unfold. repeat (apply (f_equal2 (@cons R)); [field|]). reflexivity.
Qed.
