(** C87: segments and triangles against general hexahedra (nodes anywhere, curved faces).  Vocabulary: IntersectSpec.v. *)

From Coq Require Import Reals Lra Lia Psatz List.
From Flocq Require Import Core.Raux.
From Verif Require Import GridGeoModel ShapeModel ShapeSpec ShapeProofs LinAlg LinAlgProofs RectModel RectSpec RectProofs NewtonLocalProofs
  IntersectModel IntersectSpec IntersectSegmentProofs IntersectTriangleProofs RectProperties.
From Verif Require MappingProofs.
Import ListNotations.
Open Scope R_scope.

Definition hexahedron (e : element) : Prop := e = Hexahedron_Linear \/ e = Hexahedron_Quadratic.
Lemma hexahedron_dimension e : hexahedron e -> CanonicalDimension e = 3%nat.
Proof. intros [-> | ->]; reflexivity. Qed.

(** ** Parallelepipeds *)

Lemma table3 E : table 3 3 E -> exists a b c d e f g h i, E = [[a; b; c]; [d; e; f]; [g; h; i]].
Proof.
  intros [L F]. apply len3 in L. destruct L as (r0 & r1 & r2 & ->).
  inversion F as [|? ? F0 F1]; subst. inversion F1 as [|? ? F2 F3]; subst. inversion F3 as [|? ? F4 _]; subst.
  apply len3 in F0. destruct F0 as (? & ? & ? & ->). apply len3 in F2. destruct F2 as (? & ? & ? & ->). apply len3 in F4. destruct F4 as (? & ? & ? & ->).
  do 9 eexists. reflexivity.
Qed.

Section Parallelepiped.
Variables (e : element) (nodes : list (list R)) (x0 : list R) (E : list (list R)).
Hypotheses (HE : hexahedron e) (T : table (NumberOfNodes e) 3 nodes) (A : affine_element 3 e nodes x0 E) (I : independent 3 E).
Let W := world_coordinates 3 e nodes.

Lemma world_affine xi : length xi = 3%nat -> W xi = vadd x0 (matvec E xi).
Proof. intros L. apply A. rewrite hexahedron_dimension by exact HE. exact L. Qed.

Lemma preimage x : length x = 3%nat -> exists xi, length xi = 3%nat /\ x = W xi.
Proof.
  intros L. destruct A as (TE & L0 & _). rewrite hexahedron_dimension in TE by exact HE.
  destruct (table3 E TE) as (a & b & c & d & e' & f & g & h & i & EE).
  apply len3 in L. destruct L as (y0 & y1 & y2 & ->). destruct (len3 _ x0 L0) as (z0 & z1 & z2 & Ez).
  set (D := a * (e' * i - f * h) - b * (d * i - f * g) + c * (d * h - e' * g)).
  assert (HD : D <> 0).
  { intros Z. apply I. rewrite EE. unfold gram, det, dot, column. cbn.
    match goal with |- ?l = 0 => replace l with (D * D) by (unfold D; ring) end. rewrite Z. ring. }
  set (w0 := y0 - z0). set (w1 := y1 - z1). set (w2 := y2 - z2).
  exists [ ((e' * i - f * h) * w0 + (c * h - b * i) * w1 + (b * f - c * e') * w2) / D;
           ((f * g - d * i) * w0 + (a * i - c * g) * w1 + (c * d - a * f) * w2) / D;
           ((d * h - e' * g) * w0 + (b * g - a * h) * w1 + (a * e' - b * d) * w2) / D ].
  split; [reflexivity|]. rewrite world_affine by reflexivity. rewrite EE, Ez. vec_unfold.
  unfold w0, w1, w2, D in *. repeat (apply (f_equal2 (@cons R)); [field; exact HD|]); reflexivity.
Qed.

Lemma affine_combination2 s t a b : length a = 3%nat -> length b = 3%nat -> s + t = 1 ->
  W (vadd (vscale s a) (vscale t b)) = vadd (vscale s (W a)) (vscale t (W b)).
Proof.
  intros La Lb S. rewrite !world_affine by (first [assumption | apply combo2_length; assumption]).
  destruct A as (TE & L0 & _). rewrite hexahedron_dimension in TE by exact HE.
  destruct (table3 E TE) as (? & ? & ? & ? & ? & ? & ? & ? & ? & ->). destruct (len3 _ x0 L0) as (z0 & z1 & z2 & ->).
  apply len3 in La. destruct La as (? & ? & ? & ->). apply len3 in Lb. destruct Lb as (? & ? & ? & ->). vec_unfold.
  replace t with (1 - s) by lra. repeat (apply (f_equal2 (@cons R)); [ring|]); reflexivity.
Qed.
Lemma combo3_length s t u a b c : length a = 3%nat -> length b = 3%nat -> length c = 3%nat ->
  length (vadd (vscale s a) (vadd (vscale t b) (vscale u c))) = 3%nat.
Proof.
  intros La Lb Lc. apply len3 in La. destruct La as (? & ? & ? & ->). apply len3 in Lb. destruct Lb as (? & ? & ? & ->).
  apply len3 in Lc. destruct Lc as (? & ? & ? & ->). reflexivity.
Qed.
Lemma affine_combination3 s t u a b c : length a = 3%nat -> length b = 3%nat -> length c = 3%nat -> s + t + u = 1 ->
  W (vadd (vscale s a) (vadd (vscale t b) (vscale u c))) = vadd (vscale s (W a)) (vadd (vscale t (W b)) (vscale u (W c))).
Proof.
  intros La Lb Lc S. rewrite !world_affine by (first [assumption | apply combo3_length; assumption]).
  destruct A as (TE & L0 & _). rewrite hexahedron_dimension in TE by exact HE.
  destruct (table3 E TE) as (? & ? & ? & ? & ? & ? & ? & ? & ? & ->). destruct (len3 _ x0 L0) as (z0 & z1 & z2 & ->).
  apply len3 in La. destruct La as (? & ? & ? & ->). apply len3 in Lb. destruct Lb as (? & ? & ? & ->). apply len3 in Lc. destruct Lc as (? & ? & ? & ->). vec_unfold.
  replace u with (1 - s - t) by lra. repeat (apply (f_equal2 (@cons R)); [ring|]); reflexivity.
Qed.

(** The local coordinates are those of the point, or both the point and the result are in the element. *)
Lemma located xi : length xi = 3%nat -> well_located e nodes (W xi) ->
  local_coordinates 3 e nodes (W xi) = xi \/ (local_coordinates 3 e nodes (W xi) = [0; 0; 0] /\ in_hexahedron e nodes (W xi)).
Proof.
  intros L H. unfold local_coordinates. rewrite hexahedron_dimension by exact HE. cbn [repeat].
  destruct (Rle_or_lt (1e-5 * 1e-5) (squared_distance 3 e nodes (W xi) [0; 0; 0])) as [F|N].
  - left. apply (newton_affine_exact 3 e nodes x0 E); rewrite ?hexahedron_dimension by exact HE; first [assumption | reflexivity].
  - right. split.
    + unfold local_coordinates_from. rewrite residual_is_distance. rewrite Rlt_bool_true by exact N. reflexivity.
    + destruct H as [H|H]; [|exact H]. exfalso. exact (Rlt_not_le _ _ N H).
Qed.
Lemma inside_local xi : length xi = 3%nat -> in_hexahedron e nodes (W xi) -> in_cube xi.
Proof.
  intros L (eta & C & EQ). replace xi with eta; [exact C|]. destruct C as [Le _].
  fold W in EQ. rewrite !world_affine in EQ by assumption.
  destruct A as (TE & L0 & _). rewrite hexahedron_dimension in TE by exact HE.
  destruct (table3 E TE) as (a & b & c & d & e' & f & g & h & i & EE). destruct (len3 _ x0 L0) as (z0 & z1 & z2 & Ez).
  set (D := a * (e' * i - f * h) - b * (d * i - f * g) + c * (d * h - e' * g)).
  assert (HD : D <> 0).
  { intros Z. apply I. rewrite EE. unfold gram, det, dot, column. cbn.
    match goal with |- ?l = 0 => replace l with (D * D) by (unfold D; ring) end. rewrite Z. ring. }
  apply len3 in L. destruct L as (u & v & w & ->). apply len3 in Le. destruct Le as (u' & v' & w' & ->).
  rewrite EE, Ez in EQ. revert EQ. vec_unfold. intros EQ. injection EQ. intros E2 E1 E0.
  assert (K0 : a * (u - u') + b * (v - v') + c * (w - w') = 0) by lra.
  assert (K1 : d * (u - u') + e' * (v - v') + f * (w - w') = 0) by lra.
  assert (K2 : g * (u - u') + h * (v - v') + i * (w - w') = 0) by lra.
  assert (Z0 : D * (u - u') = 0).
  { transitivity ((e' * i - f * h) * (a * (u - u') + b * (v - v') + c * (w - w')) + (c * h - b * i) * (d * (u - u') + e' * (v - v') + f * (w - w'))
      + (b * f - c * e') * (g * (u - u') + h * (v - v') + i * (w - w'))); [unfold D; ring|]. rewrite K0, K1, K2. ring. }
  assert (Z1 : D * (v - v') = 0).
  { transitivity ((f * g - d * i) * (a * (u - u') + b * (v - v') + c * (w - w')) + (a * i - c * g) * (d * (u - u') + e' * (v - v') + f * (w - w'))
      + (c * d - a * f) * (g * (u - u') + h * (v - v') + i * (w - w'))); [unfold D; ring|]. rewrite K0, K1, K2. ring. }
  assert (Z2 : D * (w - w') = 0).
  { transitivity ((d * h - e' * g) * (a * (u - u') + b * (v - v') + c * (w - w')) + (b * g - a * h) * (d * (u - u') + e' * (v - v') + f * (w - w'))
      + (a * e' - b * d) * (g * (u - u') + h * (v - v') + i * (w - w'))); [unfold D; ring|]. rewrite K0, K1, K2. ring. }
  apply Rmult_integral in Z0, Z1, Z2. repeat (apply (f_equal2 (@cons R)); [lra|]). reflexivity.
Qed.
Lemma centre_in_cube : in_cube [0; 0; 0].
Proof. split; [reflexivity|]. repeat (apply Forall_cons; [lra|]). apply Forall_nil. Qed.

Lemma segment_of_start a b : length a = 3%nat -> length b = 3%nat -> on_segment a b a.
Proof.
  intros La Lb. exists 0. split; [lra|]. apply len3 in La. destruct La as (? & ? & ? & ->). apply len3 in Lb. destruct Lb as (? & ? & ? & ->).
  vec_unfold. repeat (apply (f_equal2 (@cons R)); [ring|]); reflexivity.
Qed.
Lemma segment_of_end a b : length a = 3%nat -> length b = 3%nat -> on_segment a b b.
Proof.
  intros La Lb. exists 1. split; [lra|]. apply len3 in La. destruct La as (? & ? & ? & ->). apply len3 in Lb. destruct Lb as (? & ? & ? & ->).
  vec_unfold. repeat (apply (f_equal2 (@cons R)); [ring|]); reflexivity.
Qed.
Lemma world_length xi : length xi = 3%nat -> length (W xi) = 3%nat.
Proof.
  intros L. rewrite world_affine by exact L. destruct A as (TE & L0 & _). rewrite hexahedron_dimension in TE by exact HE.
  destruct (table3 E TE) as (? & ? & ? & ? & ? & ? & ? & ? & ? & ->). destruct (len3 _ x0 L0) as (z0 & z1 & z2 & ->).
  apply len3 in L. destruct L as (? & ? & ? & ->). reflexivity.
Qed.

Lemma parallelepiped_segment a b : length a = 3%nat -> length b = 3%nat -> well_located e nodes a -> well_located e nodes b ->
  (Hexahedron_intersects_segment e nodes a b 0 = true <-> exists x, on_segment a b x /\ in_hexahedron e nodes x).
Proof.
  intros La Lb Wa Wb. destruct (preimage a La) as (xa & Lxa & ->). destruct (preimage b Lb) as (xb & Lxb & ->).
  unfold Hexahedron_intersects_segment. pose proof (located xa Lxa Wa) as Ca. pose proof (located xb Lxb Wb) as Cb.
  assert (L3 : length [0; 0; 0] = 3%nat) by reflexivity.
  destruct Ca as [Ea|[Ea Ia]]; [destruct Cb as [Eb|[Eb Ib]]|].
  - rewrite Ea, Eb, local_segment_exact by assumption. split.
    + intros (y & (t & Ht & ->) & C). exists (W (vadd (vscale (1 - t) xa) (vscale t xb))). split; [exists t; split; [exact Ht|]; apply affine_combination2; [assumption|assumption|lra]|].
      eexists. split; [exact C|reflexivity].
    + intros (y & (t & Ht & ->) & C). exists (vadd (vscale (1 - t) xa) (vscale t xb)). split; [exists t; split; [exact Ht|reflexivity]|].
      apply inside_local; [apply combo2_length; assumption|]. rewrite affine_combination2 by (assumption || lra). exact C.
  - rewrite Ea, Eb. split; intros _.
    + exists (W xb). split; [apply segment_of_end; apply world_length; assumption|exact Ib].
    + apply local_segment_exact; [assumption|reflexivity|]. exists [0; 0; 0]. split; [apply segment_of_end; assumption|exact centre_in_cube].
  - rewrite Ea. split; intros _.
    + exists (W xa). split; [apply segment_of_start; apply world_length; assumption|exact Ia].
    + assert (Ll : length (local_coordinates 3 e nodes (W xb)) = 3%nat) by (destruct Cb as [-> |[-> _]]; assumption).
      apply local_segment_exact; [reflexivity|exact Ll|]. exists [0; 0; 0]. split; [apply segment_of_start; assumption|exact centre_in_cube].
Qed.

Lemma triangle_of_vertex a b c s t u : length a = 3%nat -> length b = 3%nat -> length c = 3%nat -> 0 <= s -> 0 <= t -> 0 <= u -> s + t + u = 1 ->
  on_triangle a b c (vadd (vscale s a) (vadd (vscale t b) (vscale u c))).
Proof. intros. exists s, t, u. repeat split; assumption. Qed.
Lemma triangle_vertex1 a b c : length a = 3%nat -> length b = 3%nat -> length c = 3%nat -> on_triangle a b c a.
Proof.
  intros La Lb Lc. exists 1, 0, 0. repeat split; try lra. apply len3 in La. destruct La as (? & ? & ? & ->). apply len3 in Lb. destruct Lb as (? & ? & ? & ->).
  apply len3 in Lc. destruct Lc as (? & ? & ? & ->). vec_unfold. repeat (apply (f_equal2 (@cons R)); [ring|]); reflexivity.
Qed.
Lemma triangle_vertex2 a b c : length a = 3%nat -> length b = 3%nat -> length c = 3%nat -> on_triangle a b c b.
Proof.
  intros La Lb Lc. exists 0, 1, 0. repeat split; try lra. apply len3 in La. destruct La as (? & ? & ? & ->). apply len3 in Lb. destruct Lb as (? & ? & ? & ->).
  apply len3 in Lc. destruct Lc as (? & ? & ? & ->). vec_unfold. repeat (apply (f_equal2 (@cons R)); [ring|]); reflexivity.
Qed.
Lemma triangle_vertex3 a b c : length a = 3%nat -> length b = 3%nat -> length c = 3%nat -> on_triangle a b c c.
Proof.
  intros La Lb Lc. exists 0, 0, 1. repeat split; try lra. apply len3 in La. destruct La as (? & ? & ? & ->). apply len3 in Lb. destruct Lb as (? & ? & ? & ->).
  apply len3 in Lc. destruct Lc as (? & ? & ? & ->). vec_unfold. repeat (apply (f_equal2 (@cons R)); [ring|]); reflexivity.
Qed.

Lemma parallelepiped_triangle a b c : length a = 3%nat -> length b = 3%nat -> length c = 3%nat ->
  well_located e nodes a -> well_located e nodes b -> well_located e nodes c ->
  (Hexahedron_intersects_triangle e nodes [a; b; c] 0 = true <-> exists x, on_triangle a b c x /\ in_hexahedron e nodes x).
Proof.
  intros La Lb Lc Wa Wb Wc. destruct (preimage a La) as (xa & Lxa & ->). destruct (preimage b Lb) as (xb & Lxb & ->). destruct (preimage c Lc) as (xc & Lxc & ->).
  unfold Hexahedron_intersects_triangle. cbn [map].
  pose proof (located xa Lxa Wa) as Ca. pose proof (located xb Lxb Wb) as Cb. pose proof (located xc Lxc Wc) as Cc.
  assert (Ma : length (local_coordinates 3 e nodes (W xa)) = 3%nat) by (destruct Ca as [-> |[-> _]]; [assumption|reflexivity]).
  assert (Mb : length (local_coordinates 3 e nodes (W xb)) = 3%nat) by (destruct Cb as [-> |[-> _]]; [assumption|reflexivity]).
  assert (Mc : length (local_coordinates 3 e nodes (W xc)) = 3%nat) by (destruct Cc as [-> |[-> _]]; [assumption|reflexivity]).
  destruct Ca as [Ea|[Ea Ia]]; [destruct Cb as [Eb|[Eb Ib]]; [destruct Cc as [Ec|[Ec Ic]]|]|].
  - rewrite Ea, Eb, Ec. split.
    + intros H. apply local_triangle_sound in H; try assumption. destruct H as (y & (s & t & u & Hs & Ht & Hu & S & ->) & C).
      exists (W (vadd (vscale s xa) (vadd (vscale t xb) (vscale u xc)))).
      split; [exists s, t, u; repeat (split; [assumption|]); apply affine_combination3; assumption|].
      eexists. split; [exact C|reflexivity].
    + intros (y & (s & t & u & Hs & Ht & Hu & S & ->) & C). apply (local_triangle_complete _ _ _ (vadd (vscale s xa) (vadd (vscale t xb) (vscale u xc)))); try assumption.
      * apply triangle_of_vertex; assumption.
      * apply inside_local; [apply combo3_length; assumption|]. rewrite affine_combination3 by assumption. exact C.
  - split; intros _.
    + exists (W xc). split; [apply triangle_vertex3; apply world_length; assumption|exact Ic].
    + apply (local_triangle_complete _ _ _ [0; 0; 0]); try assumption; [|exact centre_in_cube]. rewrite <- Ec. apply triangle_vertex3; assumption.
  - split; intros _.
    + exists (W xb). split; [apply triangle_vertex2; apply world_length; assumption|exact Ib].
    + apply (local_triangle_complete _ _ _ [0; 0; 0]); try assumption; [|exact centre_in_cube]. rewrite <- Eb. apply triangle_vertex2; assumption.
  - split; intros _.
    + exists (W xa). split; [apply triangle_vertex1; apply world_length; assumption|exact Ia].
    + apply (local_triangle_complete _ _ _ [0; 0; 0]); try assumption; [|exact centre_in_cube]. rewrite <- Ea. apply triangle_vertex1; assumption.
Qed.
End Parallelepiped.

(** * C87 *)

(** For every parallelepiped (an affine hexahedron, linear or quadratic, in any position), the test with a zero
    tolerance decides whether the segment meets the element. *)
Theorem C87_parallelepiped_segment_partial : forall e nodes x0 E a b, hexahedron e -> table (NumberOfNodes e) 3 nodes ->
  affine_element 3 e nodes x0 E -> independent 3 E -> length a = 3%nat -> length b = 3%nat ->
  well_located e nodes a -> well_located e nodes b ->
  (Hexahedron_intersects_segment e nodes a b 0 = true <-> exists x, on_segment a b x /\ in_hexahedron e nodes x).
Proof. intros. eapply parallelepiped_segment; eassumption. Qed.
Print Assumptions C87_parallelepiped_segment_partial.

Theorem C87_parallelepiped_triangle_partial : forall e nodes x0 E a b c, hexahedron e -> table (NumberOfNodes e) 3 nodes ->
  affine_element 3 e nodes x0 E -> independent 3 E -> length a = 3%nat -> length b = 3%nat -> length c = 3%nat ->
  well_located e nodes a -> well_located e nodes b -> well_located e nodes c ->
  (Hexahedron_intersects_triangle e nodes [a; b; c] 0 = true <-> exists x, on_triangle a b c x /\ in_hexahedron e nodes x).
Proof. intros. eapply parallelepiped_triangle; eassumption. Qed.
Print Assumptions C87_parallelepiped_triangle_partial.

(** With any tolerance, no contact is missed. *)
Theorem C87_parallelepiped_no_miss_partial : forall e nodes x0 E a b x eps, hexahedron e -> table (NumberOfNodes e) 3 nodes ->
  affine_element 3 e nodes x0 E -> independent 3 E -> length a = 3%nat -> length b = 3%nat -> 0 <= eps ->
  well_located e nodes a -> well_located e nodes b -> on_segment a b x -> in_hexahedron e nodes x ->
  Hexahedron_intersects_segment e nodes a b eps = true.
Proof.
  intros e nodes x0 E a b x eps HE T A I La Lb He Wa Wb S Ix.
  assert (H : Hexahedron_intersects_segment e nodes a b 0 = true).
  { apply (C87_parallelepiped_segment_partial e nodes x0 E a b); try assumption. exists x. split; assumption. }
  unfold Hexahedron_intersects_segment in *. pose proof (MappingProofs.local_length 3 e nodes a) as Ma. pose proof (MappingProofs.local_length 3 e nodes b) as Mb.
  rewrite hexahedron_dimension in Ma, Mb by exact HE. apply local_segment_exact in H; try assumption. destruct H as (y & Sy & Cy).
  apply (local_segment_no_miss _ _ y); assumption.
Qed.
Print Assumptions C87_parallelepiped_no_miss_partial.

(** For any hexahedron: an end whose local coordinates, as computed, are in the cube is enough for the segment to be
    reported.  In particular a segment with an end less than 1e-5 away from the centre always is, whatever the size of
    the element. *)
Theorem C87_end_inside : forall e nodes a b eps, hexahedron e -> 0 <= eps ->
  in_cube (local_coordinates 3 e nodes a) \/ in_cube (local_coordinates 3 e nodes b) ->
  Hexahedron_intersects_segment e nodes a b eps = true.
Proof.
  intros e nodes a b eps HE He H. unfold Hexahedron_intersects_segment.
  pose proof (MappingProofs.local_length 3 e nodes a) as Ma. pose proof (MappingProofs.local_length 3 e nodes b) as Mb.
  rewrite hexahedron_dimension in Ma, Mb by exact HE.
  destruct H as [H|H]; (eapply local_segment_no_miss; [exact Ma|exact Mb|exact He| |exact H]); [apply segment_of_start|apply segment_of_end]; assumption.
Qed.
Print Assumptions C87_end_inside.
Lemma near_centre e nodes a : hexahedron e -> squared_distance 3 e nodes a [0; 0; 0] < 1e-5 * 1e-5 -> local_coordinates 3 e nodes a = [0; 0; 0].
Proof.
  intros HE N. unfold local_coordinates, local_coordinates_from. rewrite hexahedron_dimension by exact HE. cbn [repeat].
  rewrite residual_is_distance, Rlt_bool_true by exact N. reflexivity.
Qed.

(** Hence the claim fails for small elements: a cube of size 2e-7 and a segment three sizes away from it. *)
Definition tiny : list (list R) :=
  [[-1e-7; -1e-7; -1e-7]; [1e-7; -1e-7; -1e-7]; [1e-7; 1e-7; -1e-7]; [-1e-7; 1e-7; -1e-7];
   [-1e-7; -1e-7; 1e-7]; [1e-7; -1e-7; 1e-7]; [1e-7; 1e-7; 1e-7]; [-1e-7; 1e-7; 1e-7]].
Lemma tiny_world u v w : world_coordinates 3 Hexahedron_Linear tiny [u; v; w] = [1e-7 * u; 1e-7 * v; 1e-7 * w].
Proof. unfold world_coordinates, interpolate, tiny. unfold_shape. vec_unfold. repeat (apply (f_equal2 (@cons R)); [field|]). reflexivity. Qed.
Lemma combo2_3 s t a0 a1 a2 b0 b1 b2 : vadd (vscale s [a0; a1; a2]) (vscale t [b0; b1; b2]) = [s * a0 + t * b0; s * a1 + t * b1; s * a2 + t * b2].
Proof. reflexivity. Qed.
Lemma combo3_3 s t u a0 a1 a2 b0 b1 b2 c0 c1 c2 : vadd (vscale s [a0; a1; a2]) (vadd (vscale t [b0; b1; b2]) (vscale u [c0; c1; c2])) =
  [s * a0 + (t * b0 + u * c0); s * a1 + (t * b1 + u * c1); s * a2 + (t * b2 + u * c2)].
Proof. reflexivity. Qed.
Lemma cube3 xi : in_cube xi <-> exists u v w, xi = [u; v; w] /\ -1 <= u <= 1 /\ -1 <= v <= 1 /\ -1 <= w <= 1.
Proof.
  split.
  - intros [L F]. apply len3 in L. destruct L as (u & v & w & ->). exists u, v, w. split; [reflexivity|].
    apply Forall_cons_iff in F. destruct F as [F0 F]. apply Forall_cons_iff in F. destruct F as [F1 F]. apply Forall_cons_iff in F. destruct F as [F2 _].
    split; [exact F0|split; assumption].
  - intros (u & v & w & -> & F0 & F1 & F2). split; [reflexivity|]. repeat (apply Forall_cons; [assumption|]). apply Forall_nil.
Qed.
Theorem C87_small_element_refuted : exists nodes x0 E a b, table 8 3 nodes /\ affine_element 3 Hexahedron_Linear nodes x0 E /\ independent 3 E /\
  length a = 3%nat /\ length b = 3%nat /\
  Hexahedron_intersects_segment Hexahedron_Linear nodes a b 0 = true /\ ~ exists x, on_segment a b x /\ in_hexahedron Hexahedron_Linear nodes x.
Proof.
  exists tiny, [0; 0; 0], [[1e-7; 0; 0]; [0; 1e-7; 0]; [0; 0; 1e-7]], [6e-7; 0; 0], [1; 0; 0].
  split; [split; [reflexivity|repeat constructor]|]. split.
  { split; [split; [reflexivity|repeat constructor]|]. split; [reflexivity|]. intros xi L. apply len3 in L. destruct L as (u & v & w & ->).
    rewrite tiny_world. vec_unfold. repeat (apply (f_equal2 (@cons R)); [ring|]). reflexivity. }
  split. { unfold independent, det, gram, column. cbn. lra. }
  split; [reflexivity|]. split; [reflexivity|]. split.
  - apply C87_end_inside; [left; reflexivity|lra|]. left. rewrite near_centre; [exact centre_in_cube|left; reflexivity|].
    unfold squared_distance. rewrite tiny_world. cbn -[Rminus]. lra.
  - intros (x & (t & Ht & ->) & xi & C & EQ). apply cube3 in C. destruct C as (u & v & w & -> & Hu & Hv & Hw).
    rewrite combo2_3, tiny_world in EQ. injection EQ as E0 E1 E2. lra.
Qed.
Print Assumptions C87_small_element_refuted.

(** The nodes of a frustum: half width 1/2 at the bottom, 3/2 at the top. *)
Definition frustum : list (list R) :=
  [[-(1/2); -(1/2); -1]; [1/2; -(1/2); -1]; [1/2; 1/2; -1]; [-(1/2); 1/2; -1];
   [-(3/2); -(3/2); 1]; [3/2; -(3/2); 1]; [3/2; 3/2; 1]; [-(3/2); 3/2; 1]].

Lemma frustum_world u v w : world_coordinates 3 Hexahedron_Linear frustum [u; v; w] = [u * (1 + w / 2); v * (1 + w / 2); w].
Proof.
  unfold world_coordinates, interpolate, frustum. unfold_shape. vec_unfold. repeat (apply (f_equal2 (@cons R)); [field|]). reflexivity.
Qed.
Lemma frustum_jacobian u v w : jacobian 3 Hexahedron_Linear frustum [u; v; w] = [[1 + w / 2; 0; u / 2]; [0; 1 + w / 2; v / 2]; [0; 0; 1]].
Proof.
  unfold jacobian, frustum. unfold_shape. vec_unfold. repeat (apply (f_equal2 (@cons (list R)))); try reflexivity; repeat (apply (f_equal2 (@cons R)); [field|]); reflexivity.
Qed.
Lemma frustum_regular xi : in_cube xi -> 0 < det (jacobian 3 Hexahedron_Linear frustum xi).
Proof.
  intros C. apply cube3 in C. destruct C as (u & v & w & -> & Hu & Hv & Hw). rewrite frustum_jacobian. unfold det.
  replace (_ - _ + _) with ((1 + w / 2) * (1 + w / 2)) by ring. nra.
Qed.
(** On the axes the local coordinates are found in one step. *)
Lemma frustum_local p q : p * q = 0 -> 1 <= p * p + q * q -> local_coordinates 3 Hexahedron_Linear frustum [p; 0; q] = [p; 0; q].
Proof.
  intros Z N. unfold local_coordinates, local_coordinates_from. cbn [CanonicalDimension repeat].
  assert (R0 : residual_norm_2 3 Hexahedron_Linear frustum [p; 0; q] [0; 0; 0] = p * p + q * q).
  { rewrite residual_is_distance. unfold squared_distance. rewrite frustum_world. cbn -[Rdiv Rminus]. field. }
  rewrite R0, Rlt_bool_false by lra.
  assert (S : newton_step 3 Hexahedron_Linear frustum [p; 0; q] [0; 0; 0] = [p; 0; q]).
  { unfold newton_step. rewrite frustum_world, frustum_jacobian. cbn [CanonicalDimension Nat.eqb]. unfold inverse, det. vec_unfold.
    repeat (apply (f_equal2 (@cons R)); [field|]). reflexivity. }
  cbn [newton_loop]. rewrite !S.
  assert (R1 : residual_norm_2 3 Hexahedron_Linear frustum [p; 0; q] [p; 0; q] = 0).
  { rewrite residual_is_distance. unfold squared_distance. rewrite frustum_world. cbn -[Rdiv Rminus].
    replace (p - p * (1 + q / 2)) with (- (p * q) / 2) by field. rewrite Z. field. }
  rewrite R1, Rle_bool_false by lra. reflexivity.
Qed.

(** The element is a frustum, whose jacobian is positive everywhere: a segment that does not meet it is reported. *)
Theorem C87_false_positive_refuted : exists nodes a b, table 8 3 nodes /\
  (forall xi, in_cube xi -> 0 < det (jacobian 3 Hexahedron_Linear nodes xi)) /\ length a = 3%nat /\ length b = 3%nat /\
  well_located Hexahedron_Linear nodes a /\ well_located Hexahedron_Linear nodes b /\
  Hexahedron_intersects_segment Hexahedron_Linear nodes a b 0 = true /\ ~ exists x, on_segment a b x /\ in_hexahedron Hexahedron_Linear nodes x.
Proof.
  exists frustum, [1.9; 0; 0], [0; 0; -1.9]. split; [split; [reflexivity|repeat constructor]|]. split; [exact frustum_regular|].
  split; [reflexivity|]. split; [reflexivity|].
  split. { left. unfold squared_distance. rewrite frustum_world. cbn -[Rdiv Rminus]. lra. }
  split. { left. unfold squared_distance. rewrite frustum_world. cbn -[Rdiv Rminus]. lra. }
  split.
  - unfold Hexahedron_intersects_segment. rewrite !frustum_local by lra. apply local_segment_exact; [reflexivity|reflexivity|].
    exists [0.95; 0; -0.95]. split.
    + exists 0.5. split; [lra|]. rewrite combo2_3. repeat (apply (f_equal2 (@cons R)); [lra|]). reflexivity.
    + apply cube3. do 3 eexists. split; [reflexivity|]. lra.
  - intros (x & (t & Ht & ->) & xi & C & EQ). apply cube3 in C. destruct C as (u & v & w & -> & Hu & Hv & Hw).
    rewrite combo2_3, frustum_world in EQ. injection EQ as E0 E1 E2. assert (W2 : w = -1.9 * t) by lra. subst w. nra.
Qed.
Print Assumptions C87_false_positive_refuted.

(** And one that goes through it is not. *)
Theorem C87_false_negative_refuted : exists nodes a b, table 8 3 nodes /\
  (forall xi, in_cube xi -> 0 < det (jacobian 3 Hexahedron_Linear nodes xi)) /\ length a = 3%nat /\ length b = 3%nat /\
  well_located Hexahedron_Linear nodes a /\ well_located Hexahedron_Linear nodes b /\
  Hexahedron_intersects_segment Hexahedron_Linear nodes a b 0 = false /\ exists x, on_segment a b x /\ in_hexahedron Hexahedron_Linear nodes x.
Proof.
  exists frustum, [2.1; 0; 0], [0; 0; 2.1]. split; [split; [reflexivity|repeat constructor]|]. split; [exact frustum_regular|].
  split; [reflexivity|]. split; [reflexivity|].
  split. { left. unfold squared_distance. rewrite frustum_world. cbn -[Rdiv Rminus]. lra. }
  split. { left. unfold squared_distance. rewrite frustum_world. cbn -[Rdiv Rminus]. lra. }
  split.
  - apply Bool.not_true_is_false. unfold Hexahedron_intersects_segment. rewrite !frustum_local by lra. intros H.
    apply local_segment_exact in H; [|reflexivity|reflexivity]. destruct H as (x & (t & Ht & ->) & C). rewrite combo2_3 in C.
    apply cube3 in C. destruct C as (u & v & w & EQ & Hu & Hv & Hw). injection EQ as E0 E1 E2. lra.
  - exists [1.3; 0; 0.8]. split.
    + exists (8 / 21). split; [lra|]. rewrite combo2_3. repeat (apply (f_equal2 (@cons R)); [lra|]). reflexivity.
    + exists [13 / 14; 0; 0.8]. split; [apply cube3; do 3 eexists; split; [reflexivity|]; lra|]. rewrite frustum_world.
      repeat (apply (f_equal2 (@cons R)); [lra|]). reflexivity.
Qed.
Print Assumptions C87_false_negative_refuted.

(** The same for triangles. *)
Theorem C87_triangle_refuted : exists nodes a b a' b' c, table 8 3 nodes /\
  (forall xi, in_cube xi -> 0 < det (jacobian 3 Hexahedron_Linear nodes xi)) /\
  Forall (fun x => length x = 3%nat /\ well_located Hexahedron_Linear nodes x) [a; b; a'; b'; c] /\
  Hexahedron_intersects_triangle Hexahedron_Linear nodes [a; b; c] 0 = true /\
  (~ exists x, on_triangle a b c x /\ in_hexahedron Hexahedron_Linear nodes x) /\
  Hexahedron_intersects_triangle Hexahedron_Linear nodes [a'; b'; c] 0 = false /\
  (exists x, on_triangle a' b' c x /\ in_hexahedron Hexahedron_Linear nodes x).
Proof.
  exists frustum, [1.9; 0; 0], [0; 0; -1.9], [2.1; 0; 0], [0; 0; 2.1], [5; 0; 0].
  split; [split; [reflexivity|repeat constructor]|]. split; [exact frustum_regular|].
  split. { repeat (apply Forall_cons; [split; [reflexivity|left; unfold squared_distance; rewrite frustum_world; cbn -[Rdiv Rminus]; lra]|]). apply Forall_nil. }
  unfold Hexahedron_intersects_triangle. cbn [map]. rewrite !frustum_local by lra. split; [|split; [|split]].
  - apply (local_triangle_complete _ _ _ [0.95; 0; -0.95]); try reflexivity.
    + exists 0.5, 0.5, 0. repeat (split; [lra|]). rewrite combo3_3. repeat (apply (f_equal2 (@cons R)); [lra|]). reflexivity.
    + apply cube3. do 3 eexists. split; [reflexivity|]. lra.
  - intros (x & (s & t & r & Hs & Ht & Hr & S & ->) & xi & C & EQ). apply cube3 in C. destruct C as (u & v & w & -> & Hu & Hv & Hw).
    rewrite combo3_3, frustum_world in EQ. injection EQ as E0 E1 E2. assert (W2 : w = -1.9 * t) by lra. subst w.
    assert (r = 1 - s - t) by lra. subst r. nra.
  - apply Bool.not_true_is_false. intros H.
    apply local_triangle_sound in H; try reflexivity. destruct H as (x & (s & t & r & Hs & Ht & Hr & S & ->) & C). rewrite combo3_3 in C.
    apply cube3 in C. destruct C as (u & v & w & EQ & Hu & Hv & Hw). injection EQ as E0 E1 E2. lra.
  - exists [1.3; 0; 0.8]. split.
    + exists (13 / 21), (8 / 21), 0. repeat (split; [lra|]). rewrite combo3_3. repeat (apply (f_equal2 (@cons R)); [lra|]). reflexivity.
    + exists [13 / 14; 0; 0.8]. split; [apply cube3; do 3 eexists; split; [reflexivity|]; lra|]. rewrite frustum_world.
      repeat (apply (f_equal2 (@cons R)); [lra|]). reflexivity.
Qed.
Print Assumptions C87_triangle_refuted.

(** A sheared box, a segment that goes through it with both ends outside, and one that passes by. *)
Definition sheared : list (list R) :=
  [[-2; -1; -1]; [0; -1; -1]; [0; 1; -1]; [-2; 1; -1]; [0; -1; 1]; [2; -1; 1]; [2; 1; 1]; [0; 1; 1]].
Lemma sheared_world u v w : world_coordinates 3 Hexahedron_Linear sheared [u; v; w] = [u + w; v; w].
Proof. unfold world_coordinates, interpolate, sheared. unfold_shape. vec_unfold. repeat (apply (f_equal2 (@cons R)); [field|]). reflexivity. Qed.
Example C87_witness : exists x0 E, affine_element 3 Hexahedron_Linear sheared x0 E /\ independent 3 E /\ table 8 3 sheared /\
  Forall (well_located Hexahedron_Linear sheared) [[-3; 0; 1]; [3; 0; 1]; [-2; 0; 1]; [-3; 0; 0]] /\
  Hexahedron_intersects_segment Hexahedron_Linear sheared [-3; 0; 1] [3; 0; 1] 0 = true /\
  Hexahedron_intersects_segment Hexahedron_Linear sheared [-2; 0; 1] [-3; 0; 0] 0 = false.
Proof.
  assert (A : affine_element 3 Hexahedron_Linear sheared [0; 0; 0] [[1; 0; 1]; [0; 1; 0]; [0; 0; 1]]).
  { split; [split; [reflexivity|repeat constructor]|]. split; [reflexivity|]. intros xi L. apply len3 in L. destruct L as (u & v & w & ->).
    rewrite sheared_world. vec_unfold. repeat (apply (f_equal2 (@cons R)); [ring|]). reflexivity. }
  assert (I : independent 3 [[1; 0; 1]; [0; 1; 0]; [0; 0; 1]]) by (unfold independent, det, gram, column; cbn; lra).
  assert (T : table 8 3 sheared) by (split; [reflexivity|repeat constructor]).
  assert (F : Forall (well_located Hexahedron_Linear sheared) [[-3; 0; 1]; [3; 0; 1]; [-2; 0; 1]; [-3; 0; 0]]).
  { repeat (apply Forall_cons; [left; unfold squared_distance; rewrite sheared_world; cbn -[Rminus]; lra|]). apply Forall_nil. }
  exists [0; 0; 0], [[1; 0; 1]; [0; 1; 0]; [0; 0; 1]]. repeat (split; [assumption|]).
  apply Forall_cons_iff in F. destruct F as [F0 F]. apply Forall_cons_iff in F. destruct F as [F1 F].
  apply Forall_cons_iff in F. destruct F as [F2 F]. apply Forall_cons_iff in F. destruct F as [F3 _].
  split.
  - apply (C87_parallelepiped_segment_partial _ _ _ _ [-3; 0; 1] [3; 0; 1] (or_introl eq_refl) T A I eq_refl eq_refl F0 F1).
    exists [1; 0; 1]. split.
    + exists (2 / 3). split; [lra|]. rewrite combo2_3. repeat (apply (f_equal2 (@cons R)); [lra|]). reflexivity.
    + exists [0; 0; 1]. split; [apply cube3; do 3 eexists; split; [reflexivity|]; lra|]. rewrite sheared_world.
      repeat (apply (f_equal2 (@cons R)); [lra|]). reflexivity.
  - apply Bool.not_true_is_false. intros H.
    apply (C87_parallelepiped_segment_partial _ _ _ _ [-2; 0; 1] [-3; 0; 0] (or_introl eq_refl) T A I eq_refl eq_refl F2 F3) in H.
    destruct H as (x & (t & Ht & ->) & xi & C & EQ). apply cube3 in C. destruct C as (u & v & w & -> & Hu & Hv & Hw).
    rewrite combo2_3, sheared_world in EQ. injection EQ as E0 E1 E2. lra.
Qed.
