(** Proofs about rectangular elements (C19, C20). *)

From Coq Require Import Reals Lra Lia.
From Coquelicot Require Import Coquelicot.
From Coq Require Import List.
From Flocq Require Import Core.Raux.
From Verif Require Import GridGeoModel ShapeModel ShapeSpec ShapeProofs ShapeFieldProofs LinAlg RectModel RectSpec.
Import ListNotations.
Open Scope R_scope.

Lemma vdot_dot : forall a b, vdot a b = dot a b.
Proof. induction a as [|x a IH]; intros [|y b]; unfold vdot, Rsum in *; simpl; try reflexivity. rewrite IH. reflexivity. Qed.

Lemma cramer3 : forall a b c d e f g h i y0 y1 y2,
  a * (e * i - f * h) - b * (d * i - f * g) + c * (d * h - e * g) <> 0 ->
  y0 * a + y1 * d + y2 * g = 0 -> y0 * b + y1 * e + y2 * h = 0 -> y0 * c + y1 * f + y2 * i = 0 ->
  y0 = 0 /\ y1 = 0 /\ y2 = 0.
Proof.
  intros a b c d e f g h i y0 y1 y2 HD E0 E1 E2.
  assert (Z0 : y0 * (a * (e * i - f * h) - b * (d * i - f * g) + c * (d * h - e * g)) = 0).
  { transitivity ((y0 * a + y1 * d + y2 * g) * (e * i - f * h) - (y0 * b + y1 * e + y2 * h) * (d * i - f * g)
                  + (y0 * c + y1 * f + y2 * i) * (d * h - e * g)); [ring|rewrite E0, E1, E2; ring]. }
  assert (Z1 : y1 * (a * (e * i - f * h) - b * (d * i - f * g) + c * (d * h - e * g)) = 0).
  { transitivity (- (y0 * a + y1 * d + y2 * g) * (b * i - c * h) + (y0 * b + y1 * e + y2 * h) * (a * i - c * g)
                  - (y0 * c + y1 * f + y2 * i) * (a * h - b * g)); [ring|rewrite E0, E1, E2; ring]. }
  assert (Z2 : y2 * (a * (e * i - f * h) - b * (d * i - f * g) + c * (d * h - e * g)) = 0).
  { transitivity ((y0 * a + y1 * d + y2 * g) * (b * f - c * e) - (y0 * b + y1 * e + y2 * h) * (a * f - c * d)
                  + (y0 * c + y1 * f + y2 * i) * (a * e - b * d)); [ring|rewrite E0, E1, E2; ring]. }
  repeat split; match goal with H : ?y * _ = 0 |- ?y = 0 => destruct (Rmult_integral _ _ H); [assumption|contradiction] end.
Qed.

(** Columns orthonormal => rows orthonormal, and determinant of square one. *)
Lemma orthonormal3 : forall a b c d e f g h i,
  a*a + d*d + g*g = 1 -> b*b + e*e + h*h = 1 -> c*c + f*f + i*i = 1 ->
  a*b + d*e + g*h = 0 -> a*c + d*f + g*i = 0 -> b*c + e*f + h*i = 0 ->
  (a * (e * i - f * h) - b * (d * i - f * g) + c * (d * h - e * g)) ^ 2 = 1 /\
  (a*a + b*b + c*c = 1 /\ d*d + e*e + f*f = 1 /\ g*g + h*h + i*i = 1 /\
   a*d + b*e + c*f = 0 /\ a*g + b*h + c*i = 0 /\ d*g + e*h + f*i = 0).
Proof.
  intros a b c d e f g h i A B C AB AC BC.
  assert (D : (a * (e * i - f * h) - b * (d * i - f * g) + c * (d * h - e * g)) ^ 2 = 1).
  { transitivity ((a*a + d*d + g*g) * ((b*b + e*e + h*h) * (c*c + f*f + i*i) - (b*c + e*f + h*i) * (b*c + e*f + h*i))
      - (a*b + d*e + g*h) * ((a*b + d*e + g*h) * (c*c + f*f + i*i) - (b*c + e*f + h*i) * (a*c + d*f + g*i))
      + (a*c + d*f + g*i) * ((a*b + d*e + g*h) * (b*c + e*f + h*i) - (b*b + e*e + h*h) * (a*c + d*f + g*i))); [ring|].
    rewrite A, B, C, AB, AC, BC. ring. }
  split; [exact D|].
  assert (N : a * (e * i - f * h) - b * (d * i - f * g) + c * (d * h - e * g) <> 0).
  { intros Z. rewrite Z in D. lra. }
  destruct (cramer3 a b c d e f g h i (a*a + b*b + c*c - 1) (a*d + b*e + c*f) (a*g + b*h + c*i) N) as (X1 & X2 & X3).
  { transitivity (a * (a*a + d*d + g*g) + b * (a*b + d*e + g*h) + c * (a*c + d*f + g*i) - a); [ring|rewrite A, AB, AC; ring]. }
  { transitivity (a * (a*b + d*e + g*h) + b * (b*b + e*e + h*h) + c * (b*c + e*f + h*i) - b); [ring|rewrite B, AB, BC; ring]. }
  { transitivity (a * (a*c + d*f + g*i) + b * (b*c + e*f + h*i) + c * (c*c + f*f + i*i) - c); [ring|rewrite C, AC, BC; ring]. }
  destruct (cramer3 a b c d e f g h i (a*d + b*e + c*f) (d*d + e*e + f*f - 1) (d*g + e*h + f*i) N) as (Y1 & Y2 & Y3).
  { transitivity (d * (a*a + d*d + g*g) + e * (a*b + d*e + g*h) + f * (a*c + d*f + g*i) - d); [ring|rewrite A, AB, AC; ring]. }
  { transitivity (d * (a*b + d*e + g*h) + e * (b*b + e*e + h*h) + f * (b*c + e*f + h*i) - e); [ring|rewrite B, AB, BC; ring]. }
  { transitivity (d * (a*c + d*f + g*i) + e * (b*c + e*f + h*i) + f * (c*c + f*f + i*i) - f); [ring|rewrite C, AC, BC; ring]. }
  destruct (cramer3 a b c d e f g h i (a*g + b*h + c*i) (d*g + e*h + f*i) (g*g + h*h + i*i - 1) N) as (W1 & W2 & W3).
  { transitivity (g * (a*a + d*d + g*g) + h * (a*b + d*e + g*h) + i * (a*c + d*f + g*i) - g); [ring|rewrite A, AB, AC; ring]. }
  { transitivity (g * (a*b + d*e + g*h) + h * (b*b + e*e + h*h) + i * (b*c + e*f + h*i) - h); [ring|rewrite B, AB, BC; ring]. }
  { transitivity (g * (a*c + d*f + g*i) + h * (b*c + e*f + h*i) + i * (c*c + f*f + i*i) - i); [ring|rewrite C, AC, BC; ring]. }
  repeat split; lra.
Qed.

(** Unpacking *)
Lemma orthonormal3_entries : forall M, orthonormal 3 M -> exists a b c d e f g h i,
  M = [[a; b; c]; [d; e; f]; [g; h; i]] /\
  a*a + d*d + g*g = 1 /\ b*b + e*e + h*h = 1 /\ c*c + f*f + i*i = 1 /\
  a*b + d*e + g*h = 0 /\ a*c + d*f + g*i = 0 /\ b*c + e*f + h*i = 0.
Proof.
  intros M [HM H]. rows M HM.
  pose proof (H 0%nat 0%nat ltac:(lia) ltac:(lia)) as E00. pose proof (H 1%nat 1%nat ltac:(lia) ltac:(lia)) as E11.
  pose proof (H 2%nat 2%nat ltac:(lia) ltac:(lia)) as E22. pose proof (H 0%nat 1%nat ltac:(lia) ltac:(lia)) as E01.
  pose proof (H 0%nat 2%nat ltac:(lia) ltac:(lia)) as E02. pose proof (H 1%nat 2%nat ltac:(lia) ltac:(lia)) as E12.
  cbn in E00, E11, E22, E01, E02, E12.
  repeat eexists; lra.
Qed.

Lemma orthonormal2_entries : forall M, orthonormal 2 M -> exists a b c d,
  M = [[a; b]; [c; d]] /\ a*a + c*c = 1 /\ b*b + d*d = 1 /\ a*b + c*d = 0.
Proof.
  intros M [HM H]. rows M HM.
  pose proof (H 0%nat 0%nat ltac:(lia) ltac:(lia)) as E00. pose proof (H 1%nat 1%nat ltac:(lia) ltac:(lia)) as E11.
  pose proof (H 0%nat 1%nat ltac:(lia) ltac:(lia)) as E01.
  cbn in E00, E11, E01.
  repeat eexists; lra.
Qed.

Lemma well_formed3_entries : forall r, well_formed 3 3 r -> exists c1 c2 c3 h1 h2 h3 a b c d e f g h i,
  r = {| p_center := [c1; c2; c3]; p_H := [h1; h2; h3]; p_R := [[a; b; c]; [d; e; f]; [g; h; i]] |} /\
  (h1 <> 0 /\ h2 <> 0 /\ h3 <> 0) /\
  a*a + d*d + g*g = 1 /\ b*b + e*e + h*h = 1 /\ c*c + f*f + i*i = 1 /\
  a*b + d*e + g*h = 0 /\ a*c + d*f + g*i = 0 /\ b*c + e*f + h*i = 0.
Proof.
  intros [c0 H0 R0] (Hc & Hh & Hn & HR). cbn [p_center p_H p_R] in *.
  apply len3 in Hc. destruct Hc as (c1 & c2 & c3 & ->).
  apply len3 in Hh. destruct Hh as (h1 & h2 & h3 & ->).
  apply orthonormal3_entries in HR. destruct HR as (a & b & c & d & e & f & g & h & i & -> & HR).
  inversion Hn as [|? ? N1 Hn1]; subst. inversion Hn1 as [|? ? N2 Hn2]; subst. inversion Hn2 as [|? ? N3 Hn3]; subst.
  exists c1, c2, c3, h1, h2, h3, a, b, c, d, e, f, g, h, i. tauto.
Qed.

Ltac unpack_rect3 W :=
  apply well_formed3_entries in W;
  destruct W as (c1 & c2 & c3 & h1 & h2 & h3 & a & b & c & d & e & f & g & h & i & -> & (N1 & N2 & N3) &
                 A & B & C & AB & AC & BC).

Ltac vec_unfold :=
  cbn [RH_world_coordinates RH_local_coordinates RQ_T RH_nodes RQ_nodes half_size p_center p_H p_R cwiseProduct cwiseQuotient
       vadd vminus vscale matvec transpose column matmul vdot dot Rsum map map2 fold_right nth seq app Nat.eqb squaredNorm].

Lemma rh_local_world : forall r xi, well_formed 3 3 r -> length xi = 3%nat ->
  RH_local_coordinates r (RH_world_coordinates r xi) = xi.
Proof.
  intros r xi W Hxi. unpack_rect3 W.
  apply len3 in Hxi. destruct Hxi as (u & v & w & ->).
  unfold RH_local_coordinates, RH_world_coordinates. vec_unfold.
  apply (f_equal2 (@cons R)); [|apply (f_equal2 (@cons R)); [|apply (f_equal2 (@cons R)); [|reflexivity]]].
  - transitivity (((a*a + d*d + g*g) * (u * (h1 / 2)) + (a*b + d*e + g*h) * (v * (h2 / 2)) + (a*c + d*f + g*i) * (w * (h3 / 2))) / (h1 / 2)).
    + field. assumption.
    + rewrite A, AB, AC. field. assumption.
  - transitivity (((a*b + d*e + g*h) * (u * (h1 / 2)) + (b*b + e*e + h*h) * (v * (h2 / 2)) + (b*c + e*f + h*i) * (w * (h3 / 2))) / (h2 / 2)).
    + field. assumption.
    + rewrite B, AB, BC. field. assumption.
  - transitivity (((a*c + d*f + g*i) * (u * (h1 / 2)) + (b*c + e*f + h*i) * (v * (h2 / 2)) + (c*c + f*f + i*i) * (w * (h3 / 2))) / (h3 / 2)).
    + field. assumption.
    + rewrite C, AC, BC. field. assumption.
Qed.

Lemma rh_world_local : forall r x, well_formed 3 3 r -> length x = 3%nat ->
  RH_world_coordinates r (RH_local_coordinates r x) = x.
Proof.
  intros r x W Hx. unpack_rect3 W.
  apply len3 in Hx. destruct Hx as (x0 & x1 & x2 & ->).
  destruct (orthonormal3 a b c d e f g h i A B C AB AC BC) as (_ & A' & B' & C' & AB' & AC' & BC').
  unfold RH_local_coordinates, RH_world_coordinates. vec_unfold.
  apply (f_equal2 (@cons R)); [|apply (f_equal2 (@cons R)); [|apply (f_equal2 (@cons R)); [|reflexivity]]].
  - transitivity (c1 + ((a*a + b*b + c*c) * (x0 - c1) + (a*d + b*e + c*f) * (x1 - c2) + (a*g + b*h + c*i) * (x2 - c3))).
    + field. repeat split; assumption.
    + rewrite A', AB', AC'. ring.
  - transitivity (c2 + ((a*d + b*e + c*f) * (x0 - c1) + (d*d + e*e + f*f) * (x1 - c2) + (d*g + e*h + f*i) * (x2 - c3))).
    + field. repeat split; assumption.
    + rewrite B', AB', BC'. ring.
  - transitivity (c3 + ((a*g + b*h + c*i) * (x0 - c1) + (d*g + e*h + f*i) * (x1 - c2) + (g*g + h*h + i*i) * (x2 - c3))).
    + field. repeat split; assumption.
    + rewrite C', AC', BC'. ring.
Qed.

Ltac entries :=
  repeat (apply (f_equal2 (@cons R)) || apply (f_equal2 (@cons (list R)))); reflexivity || (field; try (repeat split; assumption)).

(** ** C20 *)
Lemma rh_world_nodal : forall e r xi,
  e = RectangularHexahedron_Linear \/ e = RectangularHexahedron_Quadratic ->
  well_formed 3 3 r -> length xi = 3%nat ->
  world_coordinates 3 e (RH_nodes e r) xi = RH_world_coordinates r xi.
Proof.
  intros e0 r xi He W Hxi. unpack_rect3 W. apply len3 in Hxi. destruct Hxi as (u & v & w & ->).
  destruct He as [-> | ->]; unfold world_coordinates, interpolate, RH_nodes, RH_world_coordinates; unfold_shape; vec_unfold;
  (apply (f_equal2 (@cons R)); [field|apply (f_equal2 (@cons R)); [field|apply (f_equal2 (@cons R)); [field|reflexivity]]]).
Qed.

Lemma rh_jacobian : forall e r xi,
  e = RectangularHexahedron_Linear \/ e = RectangularHexahedron_Quadratic ->
  well_formed 3 3 r -> length xi = 3%nat ->
  jacobian 3 e (RH_nodes e r) xi = map (fun row => cwiseProduct row (half_size r)) (p_R r).
Proof.
  intros e0 r xi He W Hxi. unpack_rect3 W. apply len3 in Hxi. destruct Hxi as (u & v & w & ->).
  destruct He as [-> | ->]; unfold jacobian, RH_nodes, RH_world_coordinates; unfold_shape; vec_unfold;
  (apply (f_equal2 (@cons (list R))); [|apply (f_equal2 (@cons (list R))); [|apply (f_equal2 (@cons (list R))); [|reflexivity]]]);
  (apply (f_equal2 (@cons R)); [field|apply (f_equal2 (@cons R)); [field|apply (f_equal2 (@cons R)); [field|reflexivity]]]).
Qed.

Lemma rh_jacobian_det : forall e r xi h1 h2 h3,
  e = RectangularHexahedron_Linear \/ e = RectangularHexahedron_Quadratic ->
  well_formed 3 3 r -> length xi = 3%nat -> p_H r = [h1; h2; h3] ->
  Rabs (det (jacobian 3 e (RH_nodes e r) xi)) = Rabs (h1 / 2 * (h2 / 2) * (h3 / 2)).
Proof.
  intros e0 r xi h1' h2' h3' He W Hxi HH. rewrite (rh_jacobian e0 r xi He W Hxi).
  unpack_rect3 W. cbn [p_H] in HH. injection HH as <- <- <-.
  destruct (orthonormal3 a b c d e f g h i A B C AB AC BC) as (D & _).
  vec_unfold. unfold det.
  set (D3 := a * (e * i - f * h) - b * (d * i - f * g) + c * (d * h - e * g)) in D.
  match goal with |- Rabs ?x = Rabs ?y => replace x with (y * D3) by (unfold D3; field) end.
  rewrite Rabs_mult. replace (Rabs D3) with 1; [ring|].
  assert (D3 = 1 \/ D3 = -1) as [-> | ->] by (destruct (Rmult_integral (D3 - 1) (D3 + 1)); [lra|left; lra|right; lra]).
  - rewrite Rabs_R1. reflexivity.
  - rewrite Rabs_left; lra.
Qed.

Lemma rq_world_nodal2 : forall e r xi, e = RectangularQuad_Linear \/ e = RectangularQuad_Quadratic ->
  well_formed 2 2 r -> length xi = 2%nat ->
  world_coordinates 2 e (RQ_nodes 2 e r) xi = RQ_T 2 r xi.
Proof.
  intros e r xi He W Hxi. destruct r as [c0 H0 R0]. destruct W as (Hc & Hh & Hn & HR). cbn [p_center p_H p_R] in *.
  apply len2 in Hc. destruct Hc as (c1 & c2 & ->). apply len2 in Hh. destruct Hh as (h1 & h2 & ->).
  apply orthonormal2_entries in HR. destruct HR as (a & b & c & d & -> & _).
  apply len2 in Hxi. destruct Hxi as (u & v & ->).
  destruct He as [-> | ->]; unfold world_coordinates, interpolate, RQ_nodes, RQ_T; unfold_shape; vec_unfold;
  (apply (f_equal2 (@cons R)); [field|apply (f_equal2 (@cons R)); [field|reflexivity]]).
Qed.

Lemma rq_world_nodal3 : forall e r xi, e = RectangularQuad_Linear \/ e = RectangularQuad_Quadratic ->
  well_formed 3 2 r -> length xi = 2%nat ->
  world_coordinates 3 e (RQ_nodes 3 e r) xi = RQ_T 3 r xi.
Proof.
  intros e0 r xi He W Hxi. destruct r as [c0 H0 R0]. destruct W as (Hc & Hh & Hn & HR). cbn [p_center p_H p_R] in *.
  apply len3 in Hc. destruct Hc as (c1 & c2 & c3 & ->). apply len2 in Hh. destruct Hh as (h1 & h2 & ->).
  apply orthonormal3_entries in HR. destruct HR as (a & b & c & d & e & f & g & h & i & -> & _).
  apply len2 in Hxi. destruct Hxi as (u & v & ->).
  destruct He as [-> | ->]; unfold world_coordinates, interpolate, RQ_nodes, RQ_T; unfold_shape; vec_unfold;
  (apply (f_equal2 (@cons R)); [field|apply (f_equal2 (@cons R)); [field|apply (f_equal2 (@cons R)); [field|reflexivity]]]).
Qed.

(** Fitting a rectangular hexahedron to the nodes of a rectangular one gives it back. *)
Lemma norm_of_square : forall l s, 0 <= s -> squaredNorm l = s * s -> norm l = s.
Proof. intros l s Hs H. unfold norm. rewrite H. apply sqrt_square. exact Hs. Qed.

Lemma normalized_scaled : forall x y z s, 0 < s -> x*x + y*y + z*z = 1 ->
  normalized [s * x; s * y; s * z] = [x; y; z].
Proof.
  intros x y z s Hs H. unfold normalized.
  assert (S : squaredNorm [s * x; s * y; s * z] = s * s).
  { unfold squaredNorm. vec_unfold. transitivity (s * s * (x*x + y*y + z*z)); [ring|rewrite H; ring]. }
  rewrite S. rewrite Rlt_bool_true by nra. rewrite (norm_of_square _ s) by (lra || exact S).
  cbn [map]. apply (f_equal2 (@cons R)); [field; lra|apply (f_equal2 (@cons R)); [field; lra|apply (f_equal2 (@cons R)); [field; lra|reflexivity]]].
Qed.

Lemma normalized_unit : forall x y z, x*x + y*y + z*z = 1 -> normalized [x; y; z] = [x; y; z].
Proof.
  intros x y z H. rewrite <- (normalized_scaled x y z 1) at 2 by (lra || exact H).
  rewrite !Rmult_1_l. reflexivity.
Qed.

Lemma norm_scaled : forall x y z s, 0 < s -> x*x + y*y + z*z = 1 -> norm [s * x; s * y; s * z] = s.
Proof.
  intros x y z s Hs H. apply norm_of_square; [lra|]. unfold squaredNorm. vec_unfold.
  transitivity (s * s * (x*x + y*y + z*z)); [ring|rewrite H; ring].
Qed.

Lemma rh_fit : forall e r, e = RectangularHexahedron_Linear \/ e = RectangularHexahedron_Quadratic ->
  well_formed 3 3 r -> Forall (fun h => 0 < h) (p_H r) -> det (p_R r) = 1 ->
  RectangularHexahedron_of e (RH_nodes e r) = r.
Proof.
  intros e0 r He W Hpos Hdet.
  assert (Wn : forall xi, length xi = 3%nat -> world_coordinates 3 e0 (RH_nodes e0 r) xi = RH_world_coordinates r xi)
    by (intros; apply rh_world_nodal; assumption).
  assert (Nd : forall k, (k < 8)%nat -> nth k (RH_nodes e0 r) [] = RH_world_coordinates r (nth k (canonical_nodes RectangularHexahedron_Linear) [])).
  { intros k Hk. destruct He as [-> | ->]; cases_lt k Hk ltac:(reflexivity). }
  unfold RectangularHexahedron_of, hexahedron_frame. rewrite !Wn by reflexivity. rewrite !Nd by lia.
  unpack_rect3 W. cbn [p_H p_R] in Hpos, Hdet.
  destruct (orthonormal3 a b c d e f g h i A B C AB AC BC) as (_ & A' & B' & C' & AB' & AC' & BC').
  inversion Hpos as [|? ? P1 Hp1]; subst. inversion Hp1 as [|? ? P2 Hp2]; subst. inversion Hp2 as [|? ? P3 Hp3]; subst.
  (* the third column is the cross product of the first two *)
  assert (W3 : d * h - g * e = c /\ g * b - a * h = f /\ a * e - d * b = i).
  { unfold det in Hdet.
    assert (X : (d*h - g*e - c)*(d*h - g*e - c) + (g*b - a*h - f)*(g*b - a*h - f) + (a*e - d*b - i)*(a*e - d*b - i) = 0).
    { transitivity ((a*a + d*d + g*g) * (b*b + e*e + h*h) - (a*b + d*e + g*h) * (a*b + d*e + g*h) + (c*c + f*f + i*i)
        - 2 * (a * (e * i - f * h) - b * (d * i - f * g) + c * (d * h - e * g))); [ring|].
      rewrite A, B, C, AB, Hdet. ring. }
    pose proof (Rle_0_sqr (d*h - g*e - c)). pose proof (Rle_0_sqr (g*b - a*h - f)). pose proof (Rle_0_sqr (a*e - d*b - i)).
    unfold Rsqr in *. repeat split; nra. }
  destruct W3 as (W1 & W2 & W3).
  assert (V : f * g - i * d = b /\ i * a - c * g = e /\ c * d - f * a = h).
  { rewrite <- W1, <- W2, <- W3. repeat split.
    - transitivity (b * (a*a + d*d + g*g) - a * (a*b + d*e + g*h)); [ring|rewrite A, AB; ring].
    - transitivity (e * (a*a + d*d + g*g) - d * (a*b + d*e + g*h)); [ring|rewrite A, AB; ring].
    - transitivity (h * (a*a + d*d + g*g) - g * (a*b + d*e + g*h)); [ring|rewrite A, AB; ring]. }
  destruct V as (V1 & V2 & V3).
  set (r := {| p_center := [c1; c2; c3]; p_H := [h1; h2; h3]; p_R := [[a; b; c]; [d; e; f]; [g; h; i]] |}) in *.
  assert (Eu : vminus (RH_world_coordinates r [1; 0; 0]) (RH_world_coordinates r [0; 0; 0]) = [h1 / 2 * a; h1 / 2 * d; h1 / 2 * g]).
  { unfold r, RH_world_coordinates. vec_unfold. entries. }
  assert (Ev : vminus (RH_world_coordinates r [0; 1; 0]) (RH_world_coordinates r [0; 0; 0]) = [h2 / 2 * b; h2 / 2 * e; h2 / 2 * h]).
  { unfold r, RH_world_coordinates. vec_unfold. entries. }
  assert (Ec : RH_world_coordinates r [0; 0; 0] = [c1; c2; c3]).
  { unfold r, RH_world_coordinates. vec_unfold. entries. }
  assert (L1 : vminus (RH_world_coordinates r [1; -1; -1]) (RH_world_coordinates r [-1; -1; -1]) = [h1 * a; h1 * d; h1 * g]).
  { unfold r, RH_world_coordinates. vec_unfold. entries. }
  assert (L2 : vminus (RH_world_coordinates r [-1; 1; -1]) (RH_world_coordinates r [-1; -1; -1]) = [h2 * b; h2 * e; h2 * h]).
  { unfold r, RH_world_coordinates. vec_unfold. entries. }
  assert (L3 : vminus (RH_world_coordinates r [-1; -1; 1]) (RH_world_coordinates r [-1; -1; -1]) = [h3 * c; h3 * f; h3 * i]).
  { unfold r, RH_world_coordinates. vec_unfold. entries. }
  cbn [canonical_nodes Hexahedron_Linear_canonical_nodes nth].
  rewrite Eu, Ev, Ec, L1, L2, L3.
  rewrite (normalized_scaled a d g (h1 / 2)) by (lra || exact A).
  rewrite (normalized_scaled b e h (h2 / 2)) by (lra || exact B).
  unfold vcross at 2 3. cbn [nth]. rewrite W1, W2, W3.
  rewrite (normalized_unit c f i C). unfold vcross. cbn [nth]. rewrite V1, V2, V3.
  rewrite (normalized_unit b e h B).
  rewrite (norm_scaled a d g h1), (norm_scaled b e h h2), (norm_scaled c f i h3) by (lra || assumption).
  reflexivity.
Qed.
