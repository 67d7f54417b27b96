(** The segment test is exact (C23). *)

From Coq Require Import Reals Lra Lia Psatz List ZArith.
From Flocq Require Import Core.Raux.
From Verif Require Import GridGeoModel ShapeModel ShapeSpec ShapeProofs LinAlg RectModel RectSpec RectProofs
  IntersectModel IntersectSpec.
Import ListNotations.
Open Scope R_scope.

(** Parameter at which a moving coordinate w + t m, m >= 0, enters [-1, 1]. *)
Definition entry (w m : R) : R := if Rlt_bool 0 m then (-1 - w) / m else 0.

Lemma entry_low : forall w m t, 0 <= m -> -1 <= w + m -> w <= 1 -> (m = 0 -> -1 <= w) -> entry w m <= t ->  -1 <= w + t * m.
Proof.
  intros w m t Hm H1 H2 H0 H. unfold entry in H. destruct (Rlt_bool_spec 0 m) as [Hp|Hn].
  - apply (Rmult_le_compat_r m) in H; [|lra]. unfold Rdiv in H. rewrite Rmult_assoc, Rinv_l in H by lra. lra.
  - assert (m = 0) by lra. subst m. specialize (H0 eq_refl). lra.
Qed.

Lemma entry_le_1 : forall w m, 0 <= m -> -1 <= w + m -> entry w m <= 1.
Proof.
  intros w m Hm H1. unfold entry. destruct (Rlt_bool_spec 0 m) as [Hp|Hn]; [|lra].
  apply (Rmult_le_reg_r m); [exact Hp|]. unfold Rdiv. rewrite Rmult_assoc, Rinv_l by lra. lra.
Qed.

Lemma entry_high : forall w m w' m', 0 <= m -> 0 <= m' -> w <= 1 -> m * w' - m' * w >= - (m + m') -> -1 <= w' + m' ->
  w + entry w' m' * m <= 1.
Proof.
  intros w m w' m' Hm Hm' Hw Hr H1. unfold entry. destruct (Rlt_bool_spec 0 m') as [Hp|Hn]; [|lra].
  apply (Rmult_le_reg_r m'); [exact Hp|]. unfold Rdiv.
  replace ((w + (-1 - w') * / m' * m) * m') with (w * m' + (-1 - w') * m * (/ m' * m')) by ring.
  rewrite Rinv_l by lra. lra.
Qed.

Lemma three_slabs : forall w0 w1 w2 m0 m1 m2, 0 <= m0 -> 0 <= m1 -> 0 <= m2 ->
  w0 <= 1 -> w1 <= 1 -> w2 <= 1 -> -1 <= w0 + m0 -> -1 <= w1 + m1 -> -1 <= w2 + m2 ->
  Rabs (m1 * w0 - m0 * w1) <= m0 + m1 -> Rabs (m2 * w1 - m1 * w2) <= m1 + m2 -> Rabs (m2 * w0 - m0 * w2) <= m0 + m2 ->
  exists t, 0 <= t <= 1 /\ -1 <= w0 + t * m0 <= 1 /\ -1 <= w1 + t * m1 <= 1 /\ -1 <= w2 + t * m2 <= 1.
Proof.
  intros w0 w1 w2 m0 m1 m2 M0 M1 M2 A0 A1 A2 B0 B1 B2 R01 R12 R02.
  apply Rabs_le_inv in R01. apply Rabs_le_inv in R12. apply Rabs_le_inv in R02.
  set (t := Rmax 0 (Rmax (entry w0 m0) (Rmax (entry w1 m1) (entry w2 m2)))).
  assert (T : 0 <= t /\ entry w0 m0 <= t /\ entry w1 m1 <= t /\ entry w2 m2 <= t).
  { unfold t, Rmax. repeat destruct Rle_dec; lra. }
  assert (C : t = 0 \/ t = entry w0 m0 \/ t = entry w1 m1 \/ t = entry w2 m2).
  { unfold t, Rmax. repeat destruct Rle_dec; auto. }
  destruct T as (T & T0 & T1 & T2). exists t. split; [split; [exact T|]|].
  { destruct C as [-> | [-> | [-> | ->]]]; [lra| | |]; apply entry_le_1; assumption. }
  assert (Hhigh : forall w m, 0 <= m -> w <= 1 -> -1 <= w + m ->
     m * w0 - m0 * w >= - (m + m0) -> m * w1 - m1 * w >= - (m + m1) -> m * w2 - m2 * w >= - (m + m2) -> w + t * m <= 1).
  { intros w m Hm Hw Hwm H0 H1 H2. destruct C as [-> | [-> | [-> | ->]]]; [lra| | |]; apply entry_high; assumption. }
  repeat split; try (apply entry_low; try assumption; intros; lra); apply Hhigh; try assumption; lra.
Qed.

(** The converse for a tolerance: a common point makes the tests pass. *)
Lemma square_le : forall a b, Rabs a <= b -> a * a <= b * b.
Proof. intros a b H. apply Rabs_le_inv in H. nra. Qed.

Lemma square_le_inv : forall a b, 0 <= b -> a * a <= b * b -> Rabs a <= b.
Proof. intros a b Hb H. apply Rabs_le. split; nra. Qed.

Definition sgn (e : R) : R := if Rlt_bool e 0 then -1 else 1.
Lemma sgn_square : forall e, sgn e * sgn e = 1.
Proof. intros e. unfold sgn. destruct Rlt_bool; ring. Qed.
Lemma sgn_abs : forall e, 0 <= sgn e * e.
Proof. intros e. unfold sgn. destruct (Rlt_bool_spec e 0); lra. Qed.

Lemma negb_rlt : forall a b, negb (Rlt_bool a b) = true <-> b <= a.
Proof. intros a b. destruct (Rlt_bool_spec a b); simpl; split; intros; (discriminate || lra || reflexivity). Qed.

(** The test on coordinates. *)
Lemma segment_test : forall v0 v1 v2 u0 u1 u2 eps,
  intersects_local_segment [v0; v1; v2] [u0; u1; u2] eps = true <->
  (v0 * sgn (u0 - v0) <= 1 + eps /\ -1 - eps <= u0 * sgn (u0 - v0)) /\
  (v1 * sgn (u1 - v1) <= 1 + eps /\ -1 - eps <= u1 * sgn (u1 - v1)) /\
  (v2 * sgn (u2 - v2) <= 1 + eps /\ -1 - eps <= u2 * sgn (u2 - v2)) /\
  (let q (ei vi ej vj : R) := (ej * vi - ei * vj) * (ej * vi - ei * vj) -
                      (ej * sgn ei + ei * sgn ej) * (ej * sgn ei + ei * sgn ej) in
   q (u1 - v1) v1 (u2 - v2) v2 <= eps /\ q (u2 - v2) v2 (u0 - v0) v0 <= eps /\ q (u0 - v0) v0 (u1 - v1) v1 <= eps).
Proof.
  intros. unfold intersects_local_segment, at_. cbn [forallb nth Nat.add Nat.modulo Nat.divmod snd fst Nat.sub].
  fold (sgn (u0 - v0)). fold (sgn (u1 - v1)). fold (sgn (u2 - v2)).
  rewrite !Bool.andb_true_iff, !negb_rlt. cbv zeta. tauto.
Qed.

Lemma slab_rewrite : forall e v f u, 
  (f * v - e * u) * (f * v - e * u) - (f * sgn e + e * sgn f) * (f * sgn e + e * sgn f) =
  ((sgn f * f) * (sgn e * v) - (sgn e * e) * (sgn f * u)) * ((sgn f * f) * (sgn e * v) - (sgn e * e) * (sgn f * u))
  - (sgn e * e + sgn f * f) * (sgn e * e + sgn f * f).
Proof.
  intros e v f u. unfold sgn. destruct (Rlt_bool e 0), (Rlt_bool f 0); ring.
Qed.

Lemma local_segment_sound : forall v0 v1 v2 u0 u1 u2, intersects_local_segment [v0; v1; v2] [u0; u1; u2] 0 = true ->
  exists t, 0 <= t <= 1 /\ -1 <= (1 - t) * v0 + t * u0 <= 1 /\ -1 <= (1 - t) * v1 + t * u1 <= 1 /\
    -1 <= (1 - t) * v2 + t * u2 <= 1.
Proof.
  intros v0 v1 v2 u0 u1 u2 H. apply segment_test in H. cbv zeta in H.
  destruct H as ((A0 & B0) & (A1 & B1) & (A2 & B2) & Q12 & Q20 & Q01).
  rewrite slab_rewrite in Q12, Q20, Q01.
  set (e0 := u0 - v0) in *. set (e1 := u1 - v1) in *. set (e2 := u2 - v2) in *.
  pose proof (sgn_abs e0) as M0. pose proof (sgn_abs e1) as M1. pose proof (sgn_abs e2) as M2.
  assert (E0 : u0 = v0 + e0) by (unfold e0; ring). assert (E1 : u1 = v1 + e1) by (unfold e1; ring).
  assert (E2 : u2 = v2 + e2) by (unfold e2; ring). clearbody e0 e1 e2. subst u0 u1 u2.
  destruct (three_slabs (sgn e0 * v0) (sgn e1 * v1) (sgn e2 * v2) (sgn e0 * e0) (sgn e1 * e1) (sgn e2 * e2))
    as (t & Ht & C0 & C1 & C2); try assumption; try lra.
  - apply square_le_inv; lra.
  - apply square_le_inv; lra.
  - apply square_le_inv; [lra|]. 
    replace ((sgn e2 * e2 * (sgn e0 * v0) - sgn e0 * e0 * (sgn e2 * v2)) * (sgn e2 * e2 * (sgn e0 * v0) - sgn e0 * e0 * (sgn e2 * v2)))
      with ((sgn e0 * e0 * (sgn e2 * v2) - sgn e2 * e2 * (sgn e0 * v0)) * (sgn e0 * e0 * (sgn e2 * v2) - sgn e2 * e2 * (sgn e0 * v0)))
      by ring. lra.
  - exists t. split; [exact Ht|].
    assert (S : forall e v, -1 <= sgn e * v + t * (sgn e * e) <= 1 -> -1 <= (1 - t) * v + t * (v + e) <= 1).
    { intros e v Hs. replace ((1 - t) * v + t * (v + e)) with (v + t * e) by ring.
      unfold sgn in Hs. destruct (Rlt_bool e 0); lra. }
    auto.
Qed.

Lemma local_segment_complete : forall v0 v1 v2 u0 u1 u2 eps t, 0 <= eps -> 0 <= t <= 1 ->
  -1 <= (1 - t) * v0 + t * u0 <= 1 -> -1 <= (1 - t) * v1 + t * u1 <= 1 -> -1 <= (1 - t) * v2 + t * u2 <= 1 ->
  intersects_local_segment [v0; v1; v2] [u0; u1; u2] eps = true.
Proof.
  intros v0 v1 v2 u0 u1 u2 eps t He Ht H0 H1 H2. apply segment_test. cbv zeta.
  assert (A : forall v u, -1 <= (1 - t) * v + t * u <= 1 ->
    v * sgn (u - v) <= 1 + eps /\ -1 - eps <= u * sgn (u - v)).
  { intros v u H. unfold sgn. destruct (Rlt_bool_spec (u - v) 0); split; nra. }
  assert (Q : forall v u v' u', -1 <= (1 - t) * v + t * u <= 1 -> -1 <= (1 - t) * v' + t * u' <= 1 ->
    ((u' - v') * v - (u - v) * v') * ((u' - v') * v - (u - v) * v') -
    ((u' - v') * sgn (u - v) + (u - v) * sgn (u' - v')) * ((u' - v') * sgn (u - v) + (u - v) * sgn (u' - v')) <= eps).
  { intros v u v' u' H H'. rewrite slab_rewrite.
    set (e := u - v) in *. set (f := u' - v') in *.
    set (x := (1 - t) * v + t * u) in *. set (y := (1 - t) * v' + t * u') in *.
    assert (X : sgn e * v = sgn e * x - t * (sgn e * e)) by (unfold x, e; ring).
    assert (Y : sgn f * v' = sgn f * y - t * (sgn f * f)) by (unfold y, f; ring).
    rewrite X, Y. pose proof (sgn_abs e) as Me. pose proof (sgn_abs f) as Mf.
    replace (sgn f * f * (sgn e * x - t * (sgn e * e)) - sgn e * e * (sgn f * y - t * (sgn f * f)))
      with (sgn f * f * (sgn e * x) - sgn e * e * (sgn f * y)) by ring.
    assert (X' : -1 <= sgn e * x <= 1) by (unfold sgn; destruct (Rlt_bool e 0); lra).
    assert (Y' : -1 <= sgn f * y <= 1) by (unfold sgn; destruct (Rlt_bool f 0); lra).
    set (m := sgn e * e) in *. set (n := sgn f * f) in *. set (x' := sgn e * x) in *. set (y' := sgn f * y) in *.
    assert (Rabs (n * x' - m * y') <= m + n) by (apply Rabs_le; split; nra).
    apply square_le in H3. lra. }
  repeat split; try (apply A; assumption); apply Q; assumption.
Qed.

(** ** World coordinates *)
Lemma local_affine2 : forall r a b s t, well_formed 3 3 r -> length a = 3%nat -> length b = 3%nat -> s + t = 1 ->
  RH_local_coordinates r (vadd (vscale s a) (vscale t b)) =
  vadd (vscale s (RH_local_coordinates r a)) (vscale t (RH_local_coordinates r b)).
Proof.
  intros r a0 b0 s t W Ha Hb Hs. unpack_rect3 W. apply len3 in Ha. destruct Ha as (a1 & a2 & a3 & ->).
  apply len3 in Hb. destruct Hb as (b1 & b2 & b3 & ->). replace s with (1 - t) by lra.
  unfold RH_local_coordinates. vec_unfold. entries.
Qed.

Lemma local_affine3 : forall r x y z s t u, well_formed 3 3 r -> length x = 3%nat -> length y = 3%nat -> length z = 3%nat ->
  s + t + u = 1 ->
  RH_local_coordinates r (vadd (vscale s x) (vadd (vscale t y) (vscale u z))) =
  vadd (vscale s (RH_local_coordinates r x)) (vadd (vscale t (RH_local_coordinates r y)) (vscale u (RH_local_coordinates r z))).
Proof.
  intros r a0 b0 d0 s t u W Ha Hb Hd Hs. unpack_rect3 W. apply len3 in Ha. destruct Ha as (a1 & a2 & a3 & ->).
  apply len3 in Hb. destruct Hb as (b1 & b2 & b3 & ->). apply len3 in Hd. destruct Hd as (d1 & d2 & d3 & ->).
  replace s with (1 - t - u) by lra.
  unfold RH_local_coordinates. vec_unfold. entries.
Qed.

Lemma RH_local_length : forall r x, well_formed 3 3 r -> length x = 3%nat -> length (RH_local_coordinates r x) = 3%nat.
Proof.
  intros r x W Hx. unpack_rect3 W. apply len3 in Hx. destruct Hx as (a1 & a2 & a3 & ->). reflexivity.
Qed.

Lemma in_box_local : forall r x, well_formed 3 3 r -> length x = 3%nat ->
  (in_box r x <-> in_cube (RH_local_coordinates r x)).
Proof.
  intros r x W Hx. split.
  - intros (xi & Hc & ->). rewrite rh_local_world by (assumption || apply Hc). exact Hc.
  - intros H. exists (RH_local_coordinates r x). split; [exact H|]. symmetry. apply rh_world_local; assumption.
Qed.

Lemma combo2_length : forall s t a b, length a = 3%nat -> length b = 3%nat -> length (vadd (vscale s a) (vscale t b)) = 3%nat.
Proof.
  intros s t a b Ha Hb. apply len3 in Ha. destruct Ha as (a1 & a2 & a3 & ->).
  apply len3 in Hb. destruct Hb as (b1 & b2 & b3 & ->). reflexivity.
Qed.

Lemma local_segment_exact : forall a b, length a = 3%nat -> length b = 3%nat ->
  (intersects_local_segment a b 0 = true <-> exists x, on_segment a b x /\ in_cube x).
Proof.
  intros a b Ha Hb. apply len3 in Ha. destruct Ha as (a1 & a2 & a3 & ->).
  apply len3 in Hb. destruct Hb as (b1 & b2 & b3 & ->). split.
  - intros H. apply local_segment_sound in H. destruct H as (t & Ht & H0 & H1 & H2).
    eexists. split; [exists t; split; [exact Ht|reflexivity]|]. split; [reflexivity|].
    vec_unfold. repeat (apply Forall_cons || apply Forall_nil); assumption.
  - intros (x & (t & Ht & ->) & [_ Hx]). revert Hx. vec_unfold. intros Hx.
    inversion Hx as [|? ? X0 Hx1]; subst. inversion Hx1 as [|? ? X1 Hx2]; subst. inversion Hx2 as [|? ? X2 _]; subst.
    apply (local_segment_complete _ _ _ _ _ _ 0 t); lra || assumption.
Qed.

Lemma local_segment_no_miss : forall a b x eps, length a = 3%nat -> length b = 3%nat -> 0 <= eps ->
  on_segment a b x -> in_cube x -> intersects_local_segment a b eps = true.
Proof.
  intros a b x eps Ha Hb He (t & Ht & ->) [_ Hx]. apply len3 in Ha. destruct Ha as (a1 & a2 & a3 & ->).
  apply len3 in Hb. destruct Hb as (b1 & b2 & b3 & ->). revert Hx. vec_unfold. intros Hx.
  inversion Hx as [|? ? X0 Hx1]; subst. inversion Hx1 as [|? ? X1 Hx2]; subst. inversion Hx2 as [|? ? X2 _]; subst.
  apply (local_segment_complete _ _ _ _ _ _ eps t); lra || assumption.
Qed.

Lemma on_segment_local : forall r a b x, well_formed 3 3 r -> length a = 3%nat -> length b = 3%nat ->
  on_segment a b x -> length x = 3%nat /\ on_segment (RH_local_coordinates r a) (RH_local_coordinates r b) (RH_local_coordinates r x).
Proof.
  intros r a b x W Ha Hb (t & Ht & ->). split; [apply combo2_length; assumption|].
  exists t. split; [exact Ht|]. apply local_affine2; try assumption. lra.
Qed.

Lemma rh_segment_exact : forall r a b, well_formed 3 3 r -> length a = 3%nat -> length b = 3%nat ->
  (RH_intersects_segment r a b 0 = true <-> exists x, on_segment a b x /\ in_box r x).
Proof.
  intros r a b W Ha Hb. unfold RH_intersects_segment.
  rewrite local_segment_exact by (apply RH_local_length; assumption). split.
  - intros (xi & (t & Ht & ->) & Hc). eexists. split; [exists t; split; [exact Ht|reflexivity]|].
    apply in_box_local; [assumption|apply combo2_length; assumption|].
    rewrite local_affine2 by (assumption || lra). exact Hc.
  - intros (x & Hs & Hb'). destruct (on_segment_local r a b x W Ha Hb Hs) as [Lx S].
    exists (RH_local_coordinates r x). split; [exact S|]. apply in_box_local; assumption.
Qed.

Lemma rh_segment_no_miss : forall r a b x eps, well_formed 3 3 r -> length a = 3%nat -> length b = 3%nat -> 0 <= eps ->
  on_segment a b x -> in_box r x -> RH_intersects_segment r a b eps = true.
Proof.
  intros r a b x eps W Ha Hb He Hs Hx. destruct (on_segment_local r a b x W Ha Hb Hs) as [Lx S].
  apply (local_segment_no_miss _ _ (RH_local_coordinates r x)); try assumption; try (apply RH_local_length; assumption).
  apply in_box_local; assumption.
Qed.
