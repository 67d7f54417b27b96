(** The triangle test is exact (C24). *)

From Coq Require Import Reals Lra Lia Psatz List ZArith Bool.
From Flocq Require Import Core.Raux.
From Verif Require Import GridGeoModel ShapeModel ShapeSpec ShapeProofs ShapeGaussProofs LinAlg RectModel RectSpec RectProofs
  IntersectModel IntersectSpec IntersectSegmentProofs.
Import ListNotations.
Open Scope R_scope.

(** ** Counting crossings in the plane *)
Definition turn (px py ax ay bx by_ : R) : R := (ax - px) * (by_ - py) - (ay - py) * (bx - px).

Definition cross_count (ax ay bx by_ px py : R) : Z :=
  let xd := seg_contains_point ax bx px in
  if Rle_bool 0 (IZR xd * turn px py ax ay bx by_) then xd else 0%Z.

Ltac rb := repeat match goal with
  | |- context [Rlt_bool ?a ?b] => destruct (Rlt_bool_spec a b)
  | |- context [Rle_bool ?a ?b] => destruct (Rle_bool_spec a b)
  | H : context [Rlt_bool ?a ?b] |- _ => destruct (Rlt_bool_spec a b)
  | H : context [Rle_bool ?a ?b] |- _ => destruct (Rle_bool_spec a b)
  end.

Lemma crossing_turn : forall x y p p1 p2,
  crossing x y p 0 (p1, p2) = cross_count (at_ p1 x) (at_ p1 y) (at_ p2 x) (at_ p2 y) (at_ p x) (at_ p y).
Proof.
  intros x y p p1 p2. unfold crossing, cross_count. rewrite !Rminus_0_r, !Rplus_0_r.
  generalize (at_ p1 x) (at_ p1 y) (at_ p2 x) (at_ p2 y) (at_ p x) (at_ p y). clear.
  intros ax ay bx by_ px py. unfold seg_contains_point, turn.
  destruct (Rlt_bool_spec px bx) as [X2|X2], (Rlt_bool_spec px ax) as [X1|X1]; cbn [Z.b2z Z.sub Z.eqb Z.add Z.opp Z.pos_sub IZR IPR].
  - destruct (Rle_bool _ _); reflexivity.
  - destruct (Rlt_bool_spec py by_) as [Y2|Y2], (Rlt_bool_spec py ay) as [Y1|Y1]; cbn [Z.b2z Z.sub Z.eqb Z.add Z.opp Z.pos_sub].
    + rewrite (Rle_bool_false by_ py) by lra. rewrite Rle_bool_false; [reflexivity|]. nra.
    + destruct (Rle_bool_spec (IZR 1 * (px - ax) * (by_ - ay)) (IZR 1 * (py - ay) * (bx - ax)));
      destruct (Rle_bool_spec 0 (IZR 1 * ((ax - px) * (by_ - py) - (ay - py) * (bx - px)))); try reflexivity; exfalso; nra.
    + destruct (Rle_bool_spec (IZR 1 * (px - ax) * (by_ - ay)) (IZR 1 * (py - ay) * (bx - ax)));
      destruct (Rle_bool_spec 0 (IZR 1 * ((ax - px) * (by_ - py) - (ay - py) * (bx - px)))); try reflexivity; exfalso; nra.
    + rewrite (Rle_bool_true by_ py) by lra. rewrite Rle_bool_true; [reflexivity|]. nra.
  - destruct (Rlt_bool_spec py by_) as [Y2|Y2], (Rlt_bool_spec py ay) as [Y1|Y1]; cbn [Z.b2z Z.sub Z.eqb Z.add Z.opp Z.pos_sub].
    + rewrite (Rle_bool_false by_ py) by lra. rewrite Rle_bool_false; [reflexivity|]. nra.
    + destruct (Rle_bool_spec (IZR (-1) * (px - ax) * (by_ - ay)) (IZR (-1) * (py - ay) * (bx - ax)));
      destruct (Rle_bool_spec 0 (IZR (-1) * ((ax - px) * (by_ - py) - (ay - py) * (bx - px)))); try reflexivity; exfalso; nra.
    + destruct (Rle_bool_spec (IZR (-1) * (px - ax) * (by_ - ay)) (IZR (-1) * (py - ay) * (bx - ax)));
      destruct (Rle_bool_spec 0 (IZR (-1) * ((ax - px) * (by_ - py) - (ay - py) * (bx - px)))); try reflexivity; exfalso; nra.
    + rewrite (Rle_bool_true by_ py) by lra. rewrite Rle_bool_true; [reflexivity|]. nra.
  - destruct (Rle_bool _ _); reflexivity.
Qed.

Definition count3 (ax ay bx by_ cx cy px py : R) : Z :=
  (cross_count ax ay bx by_ px py + cross_count bx by_ cx cy px py + cross_count cx cy ax ay px py)%Z.

(** Weights of the three vertices: SA = turn of B, C etc. *)
Lemma turn_balance : forall ax ay bx by_ cx cy px py,
  turn px py bx by_ cx cy * (ax - px) + turn px py cx cy ax ay * (bx - px) + turn px py ax ay bx by_ * (cx - px) = 0.
Proof. intros. unfold turn. ring. Qed.

Lemma count3_spec : forall ax ay bx by_ cx cy px py,
  let SA := turn px py bx by_ cx cy in
  let SB := turn px py cx cy ax ay in
  let SC := turn px py ax ay bx by_ in
  0 < SA + SB + SC ->
  (count3 ax ay bx by_ cx cy px py <> 0%Z -> 0 <= SA /\ 0 <= SB /\ 0 <= SC) /\
  (0 < SA -> 0 < SB -> 0 < SC -> count3 ax ay bx by_ cx cy px py <> 0%Z).
Proof.
  intros ax ay bx by_ cx cy px py SA SB SC HS.
  pose proof (turn_balance ax ay bx by_ cx cy px py) as Bal. fold SA SB SC in Bal.
  assert (Deg : ax - px = 0 -> bx - px = 0 -> cx - px = 0 -> False).
  { intros A B C. assert (SA = 0 /\ SB = 0 /\ SC = 0) as (? & ? & ?); [|lra].
    unfold SA, SB, SC, turn. rewrite A, B, C. repeat split; ring. }
  unfold count3, cross_count. fold SA SB SC. unfold seg_contains_point.
  clearbody SA SB SC.
  destruct (Rlt_bool_spec px ax) as [A|A], (Rlt_bool_spec px bx) as [B|B], (Rlt_bool_spec px cx) as [C|C];
    cbn [Z.b2z Z.sub Z.add Z.opp Z.pos_sub].
  - destruct (Rle_bool _ _), (Rle_bool _ _), (Rle_bool _ _); (split; [intros H; exfalso; apply H; reflexivity|]);
      intros; exfalso; nra.
  - destruct (Rle_bool_spec 0 (IZR (-1) * SA)), (Rle_bool_spec 0 (IZR 1 * SB)), (Rle_bool 0 (IZR 0 * SC)); cbn;
      (split; [intros Hc|intros HA HB HC Hc]; try (exfalso; apply Hc; reflexivity); try discriminate; try (repeat split; nra); try (exfalso; nra)).
  - destruct (Rle_bool_spec 0 (IZR (-1) * SC)), (Rle_bool_spec 0 (IZR 1 * SA)), (Rle_bool 0 (IZR 0 * SB)); cbn;
      (split; [intros Hc|intros HA HB HC Hc]; try (exfalso; apply Hc; reflexivity); try discriminate; try (repeat split; nra); try (exfalso; nra)).
  - destruct (Rle_bool_spec 0 (IZR (-1) * SC)), (Rle_bool_spec 0 (IZR 1 * SB)), (Rle_bool 0 (IZR 0 * SA)); cbn;
      (split; [intros Hc|intros HA HB HC Hc]; try (exfalso; apply Hc; reflexivity); try discriminate; try (repeat split; nra); try (exfalso; nra)).
  - destruct (Rle_bool_spec 0 (IZR (-1) * SB)), (Rle_bool_spec 0 (IZR 1 * SC)), (Rle_bool 0 (IZR 0 * SA)); cbn;
      (split; [intros Hc|intros HA HB HC Hc]; try (exfalso; apply Hc; reflexivity); try discriminate; try (repeat split; nra); try (exfalso; nra)).
  - destruct (Rle_bool_spec 0 (IZR (-1) * SA)), (Rle_bool_spec 0 (IZR 1 * SC)), (Rle_bool 0 (IZR 0 * SB)); cbn;
      (split; [intros Hc|intros HA HB HC Hc]; try (exfalso; apply Hc; reflexivity); try discriminate; try (repeat split; nra); try (exfalso; nra)).
  - destruct (Rle_bool_spec 0 (IZR (-1) * SB)), (Rle_bool_spec 0 (IZR 1 * SA)), (Rle_bool 0 (IZR 0 * SC)); cbn;
      (split; [intros Hc|intros HA HB HC Hc]; try (exfalso; apply Hc; reflexivity); try discriminate; try (repeat split; nra); try (exfalso; nra)).
  - destruct (Rle_bool _ _), (Rle_bool _ _), (Rle_bool _ _); (split; [intros H; exfalso; apply H; reflexivity|]);
      intros HA HB HC; exfalso; apply Deg; nra.
Qed.

(** ** The normal and the projection axes *)
Definition N0 (a0 a1 a2 b0 b1 b2 c0 c1 c2 : R) : R := (b1 - c1) * (c2 - a2) - (b2 - c2) * (c1 - a1).

Definition normal_of (a b c : list R) : list R := vcross (vminus b c) (vminus c a).

Lemma normalized_positive : forall x y z, exists k, 0 < k /\ normalized [x; y; z] = [k * x; k * y; k * z].
Proof.
  intros x y z. unfold normalized. destruct (Rlt_bool_spec 0 (squaredNorm [x; y; z])) as [H|H].
  - exists (/ norm [x; y; z]). split.
    + apply Rinv_0_lt_compat. apply sqrt_lt_R0. exact H.
    + cbn [map]. unfold Rdiv. repeat (apply (f_equal2 (@cons R)); [ring|]). reflexivity.
  - exists 1. split; [lra|]. repeat (apply (f_equal2 (@cons R)); [ring|]). reflexivity.
Qed.

Inductive axes : nat -> nat -> nat -> bool -> Prop :=
| axes012 : axes 0 1 2 true | axes120 : axes 1 2 0 true | axes201 : axes 2 0 1 true
| axes102 : axes 1 0 2 false | axes210 : axes 2 1 0 false | axes021 : axes 0 2 1 false.

(** The signed area of the projected triangle is the component of the normal, up to the orientation. *)
Lemma projected_area : forall x y z o a b c p, axes x y z o -> length a = 3%nat -> length b = 3%nat -> length c = 3%nat ->
  turn (at_ p x) (at_ p y) (at_ b x) (at_ b y) (at_ c x) (at_ c y) +
  turn (at_ p x) (at_ p y) (at_ c x) (at_ c y) (at_ a x) (at_ a y) +
  turn (at_ p x) (at_ p y) (at_ a x) (at_ a y) (at_ b x) (at_ b y) =
  (if o then 1 else -1) * at_ (normal_of a b c) z.
Proof.
  intros x y z o a b c p Hax Ha Hb Hc. apply len3 in Ha. destruct Ha as (a0 & a1 & a2 & ->).
  apply len3 in Hb. destruct Hb as (b0 & b1 & b2 & ->). apply len3 in Hc. destruct Hc as (c0 & c1 & c2 & ->).
  destruct Hax; unfold turn, at_, normal_of, vcross, vminus; cbn [map2 nth]; ring.
Qed.

(** A point of the plane is the combination of the vertices with the projected areas as weights. *)
Lemma plane_point : forall x y z o a b c p, axes x y z o -> length a = 3%nat -> length b = 3%nat -> length c = 3%nat ->
  length p = 3%nat -> vdot (normal_of a b c) p = vdot (normal_of a b c) a ->
  let m := (if o then 1 else -1) * at_ (normal_of a b c) z in
  vscale m p =
  vadd (vscale (turn (at_ p x) (at_ p y) (at_ b x) (at_ b y) (at_ c x) (at_ c y)) a)
  (vadd (vscale (turn (at_ p x) (at_ p y) (at_ c x) (at_ c y) (at_ a x) (at_ a y)) b)
        (vscale (turn (at_ p x) (at_ p y) (at_ a x) (at_ a y) (at_ b x) (at_ b y)) c)).
Proof.
  intros x y z o a b c p Hax Ha Hb Hc Hp HN m. apply len3 in Ha. destruct Ha as (a0 & a1 & a2 & ->).
  apply len3 in Hb. destruct Hb as (b0 & b1 & b2 & ->). apply len3 in Hc. destruct Hc as (c0 & c1 & c2 & ->).
  apply len3 in Hp. destruct Hp as (p0 & p1 & p2 & ->).
  unfold normal_of, vcross, vminus in HN. cbn [map2 nth vdot Rsum fold_right] in HN.
  unfold m. destruct Hax; unfold turn, at_, normal_of, vcross, vminus, vscale, vadd; cbn [map2 nth map];
    repeat (apply (f_equal2 (@cons R)); [nra|]); reflexivity.
Qed.

Lemma combination_areas : forall x y z o a b c s t u, axes x y z o ->
  length a = 3%nat -> length b = 3%nat -> length c = 3%nat -> s + t + u = 1 ->
  let p := vadd (vscale s a) (vadd (vscale t b) (vscale u c)) in
  let m := (if o then 1 else -1) * at_ (normal_of a b c) z in
  turn (at_ p x) (at_ p y) (at_ b x) (at_ b y) (at_ c x) (at_ c y) = s * m /\
  turn (at_ p x) (at_ p y) (at_ c x) (at_ c y) (at_ a x) (at_ a y) = t * m /\
  turn (at_ p x) (at_ p y) (at_ a x) (at_ a y) (at_ b x) (at_ b y) = u * m.
Proof.
  intros x y z o a b c s t u Hax Ha Hb Hc Hs. assert (s = 1 - t - u) by lra. subst s. intros p m. apply len3 in Ha. destruct Ha as (a0 & a1 & a2 & ->).
  apply len3 in Hb. destruct Hb as (b0 & b1 & b2 & ->). apply len3 in Hc. destruct Hc as (c0 & c1 & c2 & ->).
  clear Hs. unfold p, m.
  destruct Hax; unfold turn, at_, normal_of, vcross, vminus, vscale, vadd; cbn [map2 nth map]; repeat split; ring.
Qed.

Lemma on_plane : forall a b c s t u, length a = 3%nat -> length b = 3%nat -> length c = 3%nat -> s + t + u = 1 ->
  vdot (normal_of a b c) (vadd (vscale s a) (vadd (vscale t b) (vscale u c))) = vdot (normal_of a b c) a.
Proof.
  intros a b c s t u Ha Hb Hc Hs. apply len3 in Ha. destruct Ha as (a0 & a1 & a2 & ->).
  apply len3 in Hb. destruct Hb as (b0 & b1 & b2 & ->). apply len3 in Hc. destruct Hc as (c0 & c1 & c2 & ->).
  replace s with (1 - t - u) in * by lra.
  unfold vdot, normal_of, vcross, vminus, vscale, vadd; cbn [map2 nth map Rsum fold_right]; ring.
Qed.

(** ** A point of the triangle moving to a point of the plane leaves through an edge *)
Lemma leave : forall m l, 0 <= m -> l <= 0 -> exists s, 0 <= s <= 1 /\ (1 - s) * m + s * l = 0 /\
  forall s', 0 <= s' <= s -> 0 <= (1 - s') * m + s' * l.
Proof.
  intros m l Hm Hl. destruct (Req_dec (m - l) 0) as [E|E].
  - exists 0. assert (m = 0) by lra. assert (l = 0) by lra. subst. split; [lra|]. split; [ring|]. intros; lra.
  - assert (P : 0 < m - l) by lra. exists (m / (m - l)).
    assert (Q : m / (m - l) * (m - l) = m) by (field; lra).
    assert (I : 0 < / (m - l)) by (apply Rinv_0_lt_compat; exact P).
    set (s := m / (m - l)) in *. assert (0 <= s <= 1) by (split; nra).
    split; [assumption|]. split; [nra|]. intros s' Hs'. nra.
Qed.

Lemma first_exit : forall m0 m1 m2 l0 l1 l2, 0 <= m0 -> 0 <= m1 -> 0 <= m2 ->
  l0 <= 0 \/ l1 <= 0 \/ l2 <= 0 ->
  exists s, 0 <= s <= 1 /\
    0 <= (1 - s) * m0 + s * l0 /\ 0 <= (1 - s) * m1 + s * l1 /\ 0 <= (1 - s) * m2 + s * l2 /\
    ((1 - s) * m0 + s * l0 = 0 \/ (1 - s) * m1 + s * l1 = 0 \/ (1 - s) * m2 + s * l2 = 0).
Proof.
  intros m0 m1 m2 l0 l1 l2 M0 M1 M2 HL.
  assert (D : forall m l, 0 <= m -> exists s, 0 <= s <= 1 /\ (l <= 0 -> (1 - s) * m + s * l = 0) /\ (0 < l -> s = 1) /\
     forall s', 0 <= s' <= s -> 0 <= (1 - s') * m + s' * l).
  { intros m l Hm. destruct (Rle_lt_dec l 0) as [H|H].
    - destruct (leave m l Hm H) as (s & A & B & C). exists s. split; [exact A|]. split; [auto|]. split; [intros; lra|exact C].
    - exists 1. split; [lra|]. split; [intros; lra|]. split; [reflexivity|]. intros. nra. }
  destruct (D m0 l0 M0) as (s0 & A0 & B0 & O0 & C0). destruct (D m1 l1 M1) as (s1 & A1 & B1 & O1 & C1).
  destruct (D m2 l2 M2) as (s2 & A2 & B2 & O2 & C2).
  exists (Rmin s0 (Rmin s1 s2)).
  assert (Hs : Rmin s0 (Rmin s1 s2) <= s0 /\ Rmin s0 (Rmin s1 s2) <= s1 /\ Rmin s0 (Rmin s1 s2) <= s2 /\ 0 <= Rmin s0 (Rmin s1 s2)).
  { unfold Rmin; repeat destruct Rle_dec; lra. }
  assert (Hc : Rmin s0 (Rmin s1 s2) = s0 \/ Rmin s0 (Rmin s1 s2) = s1 \/ Rmin s0 (Rmin s1 s2) = s2).
  { unfold Rmin; repeat destruct Rle_dec; auto. }
  set (s := Rmin s0 (Rmin s1 s2)) in *. clearbody s.
  split; [lra|]. split; [apply C0; lra|]. split; [apply C1; lra|]. split; [apply C2; lra|].
  destruct (Rle_lt_dec l0 0) as [L0|L0], (Rle_lt_dec l1 0) as [L1|L1], (Rle_lt_dec l2 0) as [L2|L2];
    try (exfalso; lra);
    repeat match goal with
      | H : 0 < ?l, O : 0 < ?l -> _ |- _ => specialize (O H)
      | H : ?l <= 0, O : ?l <= 0 -> _ |- _ => specialize (O H)
      end;
    destruct Hc as [Hc|[Hc|Hc]]; rewrite Hc in *;
    try (left; assumption); try (right; left; assumption); try (right; right; assumption).
  all: try (right; right; replace s2 with 1 in * by lra; assumption).
  all: try (right; left; replace s1 with 1 in * by lra; assumption).
  all: try (left; replace s0 with 1 in * by lra; assumption).
  all: subst; try (right; right; replace s2 with 1 in * by lra; assumption).
  all: try (right; left; replace s1 with 1 in * by lra; assumption).
  all: try (left; replace s0 with 1 in * by lra; assumption).
Qed.

(** ** Degenerate triangles are the union of their edges *)
Lemma collinear : forall a b c, length a = 3%nat -> length b = 3%nat -> length c = 3%nat ->
  normal_of a b c = [0; 0; 0] -> a = b \/ exists k, vminus c a = vscale k (vminus b a).
Proof.
  intros a b c Ha Hb Hc. apply len3 in Ha. destruct Ha as (a0 & a1 & a2 & ->).
  apply len3 in Hb. destruct Hb as (b0 & b1 & b2 & ->). apply len3 in Hc. destruct Hc as (c0 & c1 & c2 & ->).
  unfold normal_of, vcross, vminus, vscale. cbn [map2 nth map]. intros H. injection H as H0 H1 H2.
  destruct (Req_dec (b0 - a0) 0) as [E0|E0]; [destruct (Req_dec (b1 - a1) 0) as [E1|E1]; [destruct (Req_dec (b2 - a2) 0) as [E2|E2]|]|].
  - left. repeat (apply (f_equal2 (@cons R)); [lra|]). reflexivity.
  - right. exists ((c2 - a2) / (b2 - a2)). repeat (apply (f_equal2 (@cons R)); [|]); [| |field; exact E2|reflexivity].
    + apply (Rmult_eq_reg_r (b2 - a2)); [|exact E2]. field_simplify; [|exact E2]. nra.
    + apply (Rmult_eq_reg_r (b2 - a2)); [|exact E2]. field_simplify; [|exact E2]. nra.
  - right. exists ((c1 - a1) / (b1 - a1)). repeat (apply (f_equal2 (@cons R)); [|]); [|field; exact E1| |reflexivity].
    + apply (Rmult_eq_reg_r (b1 - a1)); [|exact E1]. field_simplify; [|exact E1]. nra.
    + apply (Rmult_eq_reg_r (b1 - a1)); [|exact E1]. field_simplify; [|exact E1]. nra.
  - right. exists ((c0 - a0) / (b0 - a0)). repeat (apply (f_equal2 (@cons R)); [|]); [field; exact E0| | |reflexivity].
    + apply (Rmult_eq_reg_r (b0 - a0)); [|exact E0]. field_simplify; [|exact E0]. nra.
    + apply (Rmult_eq_reg_r (b0 - a0)); [|exact E0]. field_simplify; [|exact E0]. nra.
Qed.

Lemma degenerate_triangle : forall a b c q, length a = 3%nat -> length b = 3%nat -> length c = 3%nat ->
  normal_of a b c = [0; 0; 0] -> on_triangle a b c q ->
  on_segment a b q \/ on_segment b c q \/ on_segment c a q.
Proof.
  intros a b c q Ha Hb Hc HN (s & t & u & Hs & Ht & Hu & Hsum & ->).
  destruct (collinear a b c Ha Hb Hc HN) as [<- | (k & Hk)].
  - right. left. exists u. split; [lra|]. replace s with (1 - t - u) by lra.
    apply len3 in Ha. destruct Ha as (a0 & a1 & a2 & ->). apply len3 in Hc. destruct Hc as (c0 & c1 & c2 & ->).
    unfold vadd, vscale. cbn [map map2]. repeat (apply (f_equal2 (@cons R)); [ring|]). reflexivity.
  - apply len3 in Ha. destruct Ha as (a0 & a1 & a2 & ->).
    apply len3 in Hb. destruct Hb as (b0 & b1 & b2 & ->). apply len3 in Hc. destruct Hc as (c0 & c1 & c2 & ->).
    unfold vminus, vscale in Hk. cbn [map2 map] in Hk. injection Hk as K0 K1 K2.
    replace c0 with (a0 + k * (b0 - a0)) by lra. replace c1 with (a1 + k * (b1 - a1)) by lra.
    replace c2 with (a2 + k * (b2 - a2)) by lra. replace s with (1 - t - u) by lra.
    destruct (Rle_lt_dec 0 k) as [K|K]; [destruct (Rle_lt_dec k 1) as [K'|K']|].
    + left. exists (t + k * u). split; [nra|].
      unfold vadd, vscale. cbn [map map2]. repeat (apply (f_equal2 (@cons R)); [ring|]). reflexivity.
    + right. right. exists (1 - (t + k * u) / k).
      assert (I : 0 < / k) by (apply Rinv_0_lt_compat; lra).
      assert (I' : / k <= 1) by (rewrite <- Rinv_1; apply Rinv_le_contravar; lra).
      assert (E : (t + k * u) / k = t * / k + u) by (field; lra).
      split; [rewrite E; nra|].
      unfold vadd, vscale. cbn [map map2]. repeat (apply (f_equal2 (@cons R)); [field; lra|]). reflexivity.
    + right. left. exists (1 - (t + k * u - k) / (1 - k)).
      assert (P : 0 < 1 - k) by lra.
      assert (E : (t + k * u - k) / (1 - k) * (1 - k) = t + k * u - k) by (field; lra).
      set (w := (t + k * u - k) / (1 - k)) in *. split; [split; nra|].
      unfold vadd, vscale. cbn [map map2].
      repeat (apply (f_equal2 (@cons R)); [unfold w; field; lra|]). reflexivity.
Qed.

(** ** The test on local coordinates *)
Lemma three_edges : forall a b c, polygon_edges [a; b; c] = [(a, b); (b, c); (c, a)].
Proof. reflexivity. Qed.

Definition sign_of (x : R) : R := if Rlt_bool x 0 then -1 else 1.
Lemma sign_of_abs : forall x, x * sign_of x = Rabs x.
Proof. intros x. unfold sign_of. destruct (Rlt_bool_spec x 0); [rewrite Rabs_left|rewrite Rabs_right]; lra. Qed.
Lemma sign_of_range : forall x, -1 <= sign_of x <= 1.
Proof. intros. unfold sign_of. destruct Rlt_bool; lra. Qed.
Lemma sign_of_scale : forall k x, 0 < k -> sign_of (k * x) = sign_of x.
Proof.
  intros k x Hk. unfold sign_of. destruct (Rlt_bool_spec (k * x) 0), (Rlt_bool_spec x 0); try reflexivity; nra.
Qed.

Lemma chosen_axes : forall n0 n1 n2, n0 <> 0 \/ n1 <> 0 \/ n2 <> 0 ->
  let n := [n0; n1; n2] in
  let a i := Rabs (at_ n i) in
  let zaxis := if Rlt_bool (a 1%nat) (a 0%nat) then (if Rlt_bool (a 2%nat) (a 0%nat) then 0 else 2)%nat
               else (if Rlt_bool (a 2%nat) (a 1%nat) then 1 else 2)%nat in
  let xaxis := if Rlt_bool (at_ n zaxis) 0 then ((zaxis + 2) mod 3)%nat else ((zaxis + 1) mod 3)%nat in
  let yaxis := if Rlt_bool (at_ n zaxis) 0 then ((zaxis + 1) mod 3)%nat else ((zaxis + 2) mod 3)%nat in
  exists o, axes xaxis yaxis zaxis o /\ 0 < (if o then 1 else -1) * at_ n zaxis.
Proof.
  intros n0 n1 n2 Hn n a zaxis xaxis yaxis. unfold yaxis, xaxis, zaxis. clear yaxis xaxis zaxis.
  assert (P : forall x, x <> 0 -> 0 < Rabs x) by (intros; apply Rabs_pos_lt; assumption).
  pose proof (Rabs_pos n0). pose proof (Rabs_pos n1). pose proof (Rabs_pos n2).
  assert (Z : forall x, x = 0 -> Rabs x = 0) by (intros x ->; apply Rabs_R0).
  unfold a, n, at_. cbn [nth].
  destruct (Rlt_bool_spec (Rabs n1) (Rabs n0)) as [H01|H01]; [destruct (Rlt_bool_spec (Rabs n2) (Rabs n0)) as [H02|H02]|
     destruct (Rlt_bool_spec (Rabs n2) (Rabs n1)) as [H12|H12]]; cbn [nth].
  - assert (n0 <> 0) by (intros E; apply Z in E; lra).
    destruct (Rlt_bool_spec n0 0); [exists false|exists true]; (split; [constructor|lra]).
  - assert (n2 <> 0) by (intros E; apply Z in E; lra).
    destruct (Rlt_bool_spec n2 0); [exists false|exists true]; (split; [constructor|lra]).
  - assert (n1 <> 0) by (intros E; apply Z in E; lra).
    destruct (Rlt_bool_spec n1 0); [exists false|exists true]; (split; [constructor|lra]).
  - assert (n2 <> 0) by (intros E; assert (n0 <> 0 \/ n1 <> 0) as [K|K] by (destruct Hn as [K|[K|K]]; [left|right|contradiction]; assumption);
      apply P in K; apply Z in E; lra).
    destruct (Rlt_bool_spec n2 0); [exists false|exists true]; (split; [constructor|lra]).
Qed.

(** The interior test, for a non zero normal: true exactly when a certain point of the cube and of the plane has a
    non zero count. *)
Lemma triangle_unfold : forall a b c, length a = 3%nat -> length b = 3%nat -> length c = 3%nat ->
  let N := normal_of a b c in
  let hit := existsb (fun e => intersects_local_segment (fst e) (snd e) 0) [(a, b); (b, c); (c, a)] in
  hit = false ->
  (N = [0; 0; 0] /\ intersects_local_triangle [a; b; c] 0 = false) \/
  exists x y z o t, axes x y z o /\ 0 < (if o then 1 else -1) * at_ N z /\
    let p := map (fun n => sign_of n * t) N in
    vdot N (map sign_of N) * t = vdot N a /\ 0 < vdot N (map sign_of N) /\
    (intersects_local_triangle [a; b; c] 0 = true <->
     -1 <= t <= 1 /\
     count3 (at_ a x) (at_ a y) (at_ b x) (at_ b y) (at_ c x) (at_ c y) (at_ p x) (at_ p y) <> 0%Z).
Proof.
  intros a b c Ha Hb Hc N hit Hhit.
  assert (LN : exists n0 n1 n2, N = [n0; n1; n2]) by (do 3 eexists; reflexivity).
  destruct LN as (n0 & n1 & n2 & EN).
  destruct (normalized_positive n0 n1 n2) as (k & Hk & Ek).
  unfold intersects_local_triangle. cbn [nth]. fold (normal_of a b c). fold N. rewrite EN, Ek.
  unfold intersects_local_polygon. rewrite three_edges. fold hit. rewrite Hhit.
  cbn [map]. fold (sign_of (k * n0)). fold (sign_of (k * n1)). fold (sign_of (k * n2)).
  rewrite !sign_of_scale by exact Hk.
  assert (ED : vdot [k * n0; k * n1; k * n2] [sign_of n0; sign_of n1; sign_of n2] = k * (Rabs n0 + Rabs n1 + Rabs n2)).
  { unfold vdot. cbn [map2 Rsum fold_right]. rewrite <- !sign_of_abs. ring. }
  rewrite ED.
  pose proof (Rabs_pos n0) as P0. pose proof (Rabs_pos n1) as P1. pose proof (Rabs_pos n2) as P2.
  destruct (Req_bool_spec (k * (Rabs n0 + Rabs n1 + Rabs n2)) 0) as [Z|NZ].
  - left. split; [|reflexivity].
    assert (Rabs n0 + Rabs n1 + Rabs n2 = 0) by (destruct (Rmult_integral _ _ Z); lra).
    assert (forall x, Rabs x = 0 -> x = 0) as I by (intros x; unfold Rabs; destruct Rcase_abs; lra).
    rewrite (I n0), (I n1), (I n2) by lra. reflexivity.
  - right.
    assert (PS : 0 < Rabs n0 + Rabs n1 + Rabs n2).
    { assert (Rabs n0 + Rabs n1 + Rabs n2 <> 0) by (intros E; rewrite E in NZ; apply NZ; ring). lra. }
    assert (HNZ : k * n0 <> 0 \/ k * n1 <> 0 \/ k * n2 <> 0).
    { assert (forall m, m <> 0 -> k * m <> 0) as I by (intros m Hm; apply Rmult_integral_contrapositive_currified; lra).
      destruct (Req_dec n0 0) as [E0|E0]; [destruct (Req_dec n1 0) as [E1|E1]; [destruct (Req_dec n2 0) as [E2|E2]|]|]; auto.
      exfalso. rewrite E0, E1, E2, Rabs_R0 in PS. lra. }
    pose proof (chosen_axes _ _ _ HNZ) as CA. cbv zeta in CA.
    set (zaxis := if Rlt_bool (Rabs (at_ [k * n0; k * n1; k * n2] 1%nat)) (Rabs (at_ [k * n0; k * n1; k * n2] 0%nat))
         then (if Rlt_bool (Rabs (at_ [k * n0; k * n1; k * n2] 2%nat)) (Rabs (at_ [k * n0; k * n1; k * n2] 0%nat)) then 0%nat else 2%nat)
         else (if Rlt_bool (Rabs (at_ [k * n0; k * n1; k * n2] 2%nat)) (Rabs (at_ [k * n0; k * n1; k * n2] 1%nat)) then 1%nat else 2%nat)) in *.
    set (xaxis := if Rlt_bool (at_ [k * n0; k * n1; k * n2] zaxis) 0 then ((zaxis + 2) mod 3)%nat else ((zaxis + 1) mod 3)%nat) in *.
    set (yaxis := if Rlt_bool (at_ [k * n0; k * n1; k * n2] zaxis) 0 then ((zaxis + 1) mod 3)%nat else ((zaxis + 2) mod 3)%nat) in *.
    destruct CA as (o & Hax & Ho).
    set (t := vdot [k * n0; k * n1; k * n2] (nth 0 [a; b; c] []) / (k * (Rabs n0 + Rabs n1 + Rabs n2))).
    exists xaxis, yaxis, zaxis, o, t. split; [exact Hax|]. split.
    { clear -Ho Hk Hax. clearbody zaxis xaxis yaxis. destruct Hax; unfold at_ in *; cbn [nth] in *; nra. }
    assert (ES : vdot [n0; n1; n2] [sign_of n0; sign_of n1; sign_of n2] = Rabs n0 + Rabs n1 + Rabs n2).
    { unfold vdot. cbn [map2 Rsum fold_right]. rewrite <- !sign_of_abs. ring. }
    cbv zeta. rewrite ES. split; [|split; [exact PS|]].
    { unfold t. cbn [nth]. apply len3 in Ha. destruct Ha as (a0 & a1 & a2 & ->).
      unfold vdot. cbn [map2 Rsum fold_right]. field. split; lra. }
    destruct (in_closed_interval (-1 - 0) t (1 + 0)) as [_ _]; [lra|].
    assert (IC : IN_CLOSED_INTERVAL (-1 - 0) t (1 + 0) = true <-> -1 <= t <= 1).
    { rewrite in_closed_interval by lra. lra. }
    cbn [fold_left]. rewrite !crossing_turn. unfold count3.
    set (p := [sign_of n0 * t; sign_of n1 * t; sign_of n2 * t]).
    rewrite Z.add_0_l.
    destruct (IN_CLOSED_INTERVAL (-1 - 0) t (1 + 0)); cbn [negb].
    + rewrite negb_true_iff, Z.eqb_neq. split; [intros H; split; [apply IC; reflexivity|exact H]|intros [_ H]; exact H].
    + split; [discriminate|]. intros [H _]. apply IC in H. discriminate.
Qed.

Lemma vdot_bound : forall n0 n1 n2 q, in_cube q -> Rabs (vdot [n0; n1; n2] q) <= Rabs n0 + Rabs n1 + Rabs n2.
Proof.
  intros n0 n1 n2 q [L H]. apply len3 in L. destruct L as (q0 & q1 & q2 & ->).
  inversion H as [|? ? Q0 H1]; subst. inversion H1 as [|? ? Q1 H2]; subst. inversion H2 as [|? ? Q2 _]; subst.
  unfold vdot. cbn [map2 Rsum fold_right].
  assert (B : forall n x, -1 <= x <= 1 -> - Rabs n <= n * x <= Rabs n).
  { intros n x Hx. unfold Rabs. destruct (Rcase_abs n); split; nra. }
  pose proof (B n0 q0 Q0). pose proof (B n1 q1 Q1). pose proof (B n2 q2 Q2). apply Rabs_le. lra.
Qed.

Lemma on_edge_of_triangle : forall a b c x, length a = 3%nat -> length b = 3%nat -> length c = 3%nat ->
  on_segment a b x \/ on_segment b c x \/ on_segment c a x -> on_triangle a b c x.
Proof.
  intros a b c x Ha Hb Hc. apply len3 in Ha. destruct Ha as (a0 & a1 & a2 & ->).
  apply len3 in Hb. destruct Hb as (b0 & b1 & b2 & ->). apply len3 in Hc. destruct Hc as (c0 & c1 & c2 & ->).
  intros [(t & Ht & ->) | [(t & Ht & ->) | (t & Ht & ->)]].
  - exists (1 - t), t, 0. repeat split; try lra. unfold vadd, vscale. cbn [map map2].
    repeat (apply (f_equal2 (@cons R)); [ring|]). reflexivity.
  - exists 0, (1 - t), t. repeat split; try lra. unfold vadd, vscale. cbn [map map2].
    repeat (apply (f_equal2 (@cons R)); [ring|]). reflexivity.
  - exists t, 0, (1 - t). repeat split; try lra. unfold vadd, vscale. cbn [map map2].
    repeat (apply (f_equal2 (@cons R)); [ring|]). reflexivity.
Qed.

Lemma existsb_three : forall (A : Type) (f : A -> bool) x y z, existsb f [x; y; z] = true <-> f x = true \/ f y = true \/ f z = true.
Proof. intros. simpl. rewrite !orb_true_iff. intuition discriminate. Qed.

Lemma diagonal_in_cube : forall N t, length N = 3%nat -> -1 <= t <= 1 -> in_cube (map (fun n => sign_of n * t) N).
Proof.
  intros N t L Ht. apply len3 in L. destruct L as (n0 & n1 & n2 & ->). split; [reflexivity|]. cbn [map].
  assert (B : forall n, -1 <= sign_of n * t <= 1) by (intros n; unfold sign_of; destruct Rlt_bool; lra).
  repeat (apply Forall_cons || apply Forall_nil); apply B.
Qed.

Lemma diagonal_on_plane : forall N a t, length N = 3%nat -> vdot N (map sign_of N) * t = vdot N a ->
  vdot N (map (fun n => sign_of n * t) N) = vdot N a.
Proof.
  intros N a t L H. apply len3 in L. destruct L as (n0 & n1 & n2 & ->). rewrite <- H.
  unfold vdot. cbn [map map2 Rsum fold_right]. ring.
Qed.

Lemma normal_length : forall a b c, length (normal_of a b c) = 3%nat.
Proof. reflexivity. Qed.

Lemma local_triangle_sound : forall a b c, length a = 3%nat -> length b = 3%nat -> length c = 3%nat ->
  intersects_local_triangle [a; b; c] 0 = true -> exists x, on_triangle a b c x /\ in_cube x.
Proof.
  intros a b c Ha Hb Hc H.
  destruct (existsb (fun e => intersects_local_segment (fst e) (snd e) 0) [(a, b); (b, c); (c, a)]) eqn:Hhit.
  - apply existsb_three in Hhit. cbn [fst snd] in Hhit. rewrite !local_segment_exact in Hhit by assumption.
    destruct Hhit as [(x & S & C) | [(x & S & C) | (x & S & C)]]; exists x; (split; [|exact C]);
      apply on_edge_of_triangle; auto.
  - destruct (triangle_unfold a b c Ha Hb Hc Hhit) as [[_ F] | (x & y & z & o & t & Hax & Ho & Ht & HD & Hiff)].
    + rewrite F in H. discriminate.
    + apply Hiff in H. destruct H as [Ht1 Hcount].
      set (N := normal_of a b c) in *. set (p := map (fun n => sign_of n * t) N) in *.
      assert (Lp : length p = 3%nat) by reflexivity.
      assert (Hplane : vdot N p = vdot N a) by (apply diagonal_on_plane; [reflexivity|exact Ht]).
      pose proof (projected_area x y z o a b c p Hax Ha Hb Hc) as Area.
      pose proof (plane_point x y z o a b c p Hax Ha Hb Hc Lp Hplane) as Comb. cbv zeta in Comb. fold N in Area, Comb.
      destruct (count3_spec (at_ a x) (at_ a y) (at_ b x) (at_ b y) (at_ c x) (at_ c y) (at_ p x) (at_ p y)) as [S _];
        [rewrite Area; exact Ho|].
      specialize (S Hcount). destruct S as (SA & SB & SC).
      set (m := (if o then 1 else -1) * at_ N z) in *.
      exists p. split; [|apply diagonal_in_cube; [reflexivity|exact Ht1]].
      assert (I : 0 < / m) by (apply Rinv_0_lt_compat; exact Ho).
      revert Area Comb SA SB SC.
      generalize (turn (at_ p x) (at_ p y) (at_ b x) (at_ b y) (at_ c x) (at_ c y)) as tA.
      generalize (turn (at_ p x) (at_ p y) (at_ c x) (at_ c y) (at_ a x) (at_ a y)) as tB.
      generalize (turn (at_ p x) (at_ p y) (at_ a x) (at_ a y) (at_ b x) (at_ b y)) as tC.
      intros tC tB tA Area Comb SA SB SC.
      exists (tA / m), (tB / m), (tC / m).
      split; [unfold Rdiv; nra|]. split; [unfold Rdiv; nra|]. split; [unfold Rdiv; nra|].
      split; [rewrite <- Area; field; lra|].
      apply len3 in Ha. destruct Ha as (a0 & a1 & a2 & ->). apply len3 in Hb. destruct Hb as (b0 & b1 & b2 & ->).
      apply len3 in Hc. destruct Hc as (c0 & c1 & c2 & ->).
      apply len3 in Lp. destruct Lp as (p0 & p1 & p2 & Ep). rewrite Ep in *.
      unfold vscale, vadd in *. cbn [map map2] in *. injection Comb as C0 C1 C2.
      assert (G : forall q u v w, m * q = tA * u + (tB * v + tC * w) -> q = tA / m * u + (tB / m * v + tC / m * w)).
      { intros q u v w E. apply (Rmult_eq_reg_l m); [|lra]. rewrite E. field. lra. }
      repeat (apply (f_equal2 (@cons R)); [apply G; assumption|]). reflexivity.
Qed.

Lemma cube_convex : forall s p q, 0 <= s <= 1 -> in_cube p -> in_cube q -> in_cube (vadd (vscale (1 - s) p) (vscale s q)).
Proof.
  intros s p q Hs [Lp Hp] [Lq Hq]. apply len3 in Lp. destruct Lp as (p0 & p1 & p2 & ->).
  apply len3 in Lq. destruct Lq as (q0 & q1 & q2 & ->).
  inversion Hp as [|? ? P0 H1]; subst. inversion H1 as [|? ? P1 H2]; subst. inversion H2 as [|? ? P2 _]; subst.
  inversion Hq as [|? ? Q0 H3]; subst. inversion H3 as [|? ? Q1 H4]; subst. inversion H4 as [|? ? Q2 _]; subst.
  split; [reflexivity|]. unfold vadd, vscale. cbn [map map2].
  assert (B : forall x y, -1 <= x <= 1 -> -1 <= y <= 1 -> -1 <= (1 - s) * x + s * y <= 1) by (intros; split; nra).
  repeat (apply Forall_cons || apply Forall_nil); apply B; assumption.
Qed.

(** A combination with one zero weight is on an edge. *)
Lemma boundary_on_edge : forall a b c s t u, length a = 3%nat -> length b = 3%nat -> length c = 3%nat ->
  0 <= s -> 0 <= t -> 0 <= u -> s + t + u = 1 -> s = 0 \/ t = 0 \/ u = 0 ->
  let x := vadd (vscale s a) (vadd (vscale t b) (vscale u c)) in
  on_segment a b x \/ on_segment b c x \/ on_segment c a x.
Proof.
  intros a b c s t u Ha Hb Hc Hs Ht Hu Hsum Hz. apply len3 in Ha. destruct Ha as (a0 & a1 & a2 & ->).
  apply len3 in Hb. destruct Hb as (b0 & b1 & b2 & ->). apply len3 in Hc. destruct Hc as (c0 & c1 & c2 & ->).
  cbv zeta. destruct Hz as [-> | [-> | ->]].
  - right. left. exists u. split; [lra|]. replace t with (1 - u) by lra. unfold vadd, vscale. cbn [map map2].
    repeat (apply (f_equal2 (@cons R)); [ring|]). reflexivity.
  - right. right. exists s. split; [lra|]. replace u with (1 - s) by lra. unfold vadd, vscale. cbn [map map2].
    repeat (apply (f_equal2 (@cons R)); [ring|]). reflexivity.
  - left. exists t. split; [lra|]. replace s with (1 - t) by lra. unfold vadd, vscale. cbn [map map2].
    repeat (apply (f_equal2 (@cons R)); [ring|]). reflexivity.
Qed.

Lemma local_triangle_complete : forall a b c x, length a = 3%nat -> length b = 3%nat -> length c = 3%nat ->
  on_triangle a b c x -> in_cube x -> intersects_local_triangle [a; b; c] 0 = true.
Proof.
  intros a b c q Ha Hb Hc Hq Hcube.
  destruct (existsb (fun e => intersects_local_segment (fst e) (snd e) 0) [(a, b); (b, c); (c, a)]) eqn:Hhit.
  { unfold intersects_local_triangle, intersects_local_polygon. rewrite three_edges, Hhit. reflexivity. }
  assert (NoEdge : forall y, in_cube y -> on_segment a b y \/ on_segment b c y \/ on_segment c a y -> False).
  { intros y Hy He. assert (T : existsb (fun e => intersects_local_segment (fst e) (snd e) 0) [(a, b); (b, c); (c, a)] = true).
    { apply existsb_three. cbn [fst snd]. rewrite !local_segment_exact by assumption.
      destruct He as [He|[He|He]]; [left|right; left|right; right]; exists y; auto. }
    rewrite T in Hhit. discriminate. }
  destruct (triangle_unfold a b c Ha Hb Hc Hhit) as [[HN _] | (x & y & z & o & t & Hax & Ho & Ht & HD & Hiff)].
  - exfalso. apply (NoEdge q Hcube). apply degenerate_triangle; assumption.
  - apply Hiff. set (N := normal_of a b c) in *. set (p := map (fun n => sign_of n * t) N) in *.
    destruct Hq as (s1 & s2 & s3 & P1 & P2 & P3 & Psum & Eq).
    assert (Hplane_q : vdot N q = vdot N a) by (rewrite Eq; apply on_plane; assumption).
    assert (Ht1 : -1 <= t <= 1).
    { assert (LN : exists n0 n1 n2, N = [n0; n1; n2]) by (do 3 eexists; reflexivity).
      destruct LN as (n0 & n1 & n2 & EN). clearbody N. subst N.
      pose proof (vdot_bound n0 n1 n2 q Hcube) as B.
      assert (ES : vdot [n0; n1; n2] (map sign_of [n0; n1; n2]) = Rabs n0 + Rabs n1 + Rabs n2).
      { unfold vdot. cbn [map map2 Rsum fold_right]. rewrite <- !sign_of_abs. ring. }
      rewrite ES in *. rewrite Hplane_q, <- Ht in B. apply Rabs_le_inv in B. split; nra. }
    split; [exact Ht1|].
    assert (Hp : in_cube p) by (apply diagonal_in_cube; [reflexivity|exact Ht1]).
    assert (Lp : length p = 3%nat) by reflexivity.
    assert (Hplane : vdot N p = vdot N a) by (apply diagonal_on_plane; [reflexivity|exact Ht]).
    pose proof (projected_area x y z o a b c p Hax Ha Hb Hc) as Area.
    pose proof (plane_point x y z o a b c p Hax Ha Hb Hc Lp Hplane) as Comb. cbv zeta in Comb. fold N in Area, Comb.
    destruct (count3_spec (at_ a x) (at_ a y) (at_ b x) (at_ b y) (at_ c x) (at_ c y) (at_ p x) (at_ p y)) as [_ S];
      [rewrite Area; exact Ho|].
    set (m := (if o then 1 else -1) * at_ N z) in *.
    set (tA := turn (at_ p x) (at_ p y) (at_ b x) (at_ b y) (at_ c x) (at_ c y)) in *.
    set (tB := turn (at_ p x) (at_ p y) (at_ c x) (at_ c y) (at_ a x) (at_ a y)) in *.
    set (tC := turn (at_ p x) (at_ p y) (at_ a x) (at_ a y) (at_ b x) (at_ b y)) in *.
    assert (Pos : (0 < tA /\ 0 < tB /\ 0 < tC) \/ (tA <= 0 \/ tB <= 0 \/ tC <= 0)) by lra.
    destruct Pos as [(A & B & C)|Neg]; [apply S; assumption|exfalso].
    assert (I : 0 < / m) by (apply Rinv_0_lt_compat; exact Ho).
    assert (Neg' : tA * / m <= 0 \/ tB * / m <= 0 \/ tC * / m <= 0) by (destruct Neg as [G|[G|G]]; [left|right; left|right; right]; nra).
    assert (Sum' : tA * / m + tB * / m + tC * / m = 1) by (rewrite <- !Rmult_plus_distr_r, Area; apply Rinv_r; lra).
    destruct (first_exit s1 s2 s3 (tA * / m) (tB * / m) (tC * / m) P1 P2 P3 Neg') as (s & Hs & E1 & E2 & E3 & Z).
    apply (NoEdge (vadd (vscale (1 - s) q) (vscale s p))); [apply cube_convex; assumption|].
    assert (Ex : vadd (vscale (1 - s) q) (vscale s p) =
                 vadd (vscale ((1 - s) * s1 + s * (tA * / m)) a)
                   (vadd (vscale ((1 - s) * s2 + s * (tB * / m)) b) (vscale ((1 - s) * s3 + s * (tC * / m)) c))).
    { clearbody tA tB tC. clear S Hiff Hhit NoEdge Area Neg Neg' Z Hplane Hplane_q E1 E2 E3 Ht HD Hax Hcube Hp. subst q.
      apply len3 in Ha. destruct Ha as (a0 & a1 & a2 & ->). apply len3 in Hb. destruct Hb as (b0 & b1 & b2 & ->).
      apply len3 in Hc. destruct Hc as (c0 & c1 & c2 & ->).
      clearbody p. apply len3 in Lp. destruct Lp as (p0 & p1 & p2 & ->).
      unfold vscale, vadd in *. cbn [map map2] in *. injection Comb as C0 C1 C2.
      assert (G : forall q' u v w, m * q' = tA * u + (tB * v + tC * w) ->
         (1 - s) * (s1 * u + (s2 * v + s3 * w)) + s * q' =
         ((1 - s) * s1 + s * (tA * / m)) * u + (((1 - s) * s2 + s * (tB * / m)) * v + ((1 - s) * s3 + s * (tC * / m)) * w)).
      { intros q' u v w E. replace q' with ((tA * u + (tB * v + tC * w)) * / m) by (rewrite <- E; field; lra). ring. }
      repeat (apply (f_equal2 (@cons R)); [apply G; assumption|]). reflexivity. }
    rewrite Ex. apply boundary_on_edge; try assumption.
    transitivity ((1 - s) * (s1 + s2 + s3) + s * (tA * / m + tB * / m + tC * / m)); [ring|]. rewrite Psum, Sum'. ring.
Qed.

(** ** World coordinates *)
Lemma rh_triangle_exact : forall r a b c, well_formed 3 3 r -> length a = 3%nat -> length b = 3%nat -> length c = 3%nat ->
  (RH_intersects_triangle r [a; b; c] 0 = true <-> exists x, on_triangle a b c x /\ in_box r x).
Proof.
  intros r a b c W Ha Hb Hc. unfold RH_intersects_triangle. cbn [map].
  assert (LL : forall s t u, length (vadd (vscale s a) (vadd (vscale t b) (vscale u c))) = 3%nat).
  { clear -Ha Hb Hc. intros. apply len3 in Ha. destruct Ha as (a0 & a1 & a2 & ->). apply len3 in Hb. destruct Hb as (b0 & b1 & b2 & ->).
    apply len3 in Hc. destruct Hc as (c0 & c1 & c2 & ->). reflexivity. }
  split.
  - intros H. apply local_triangle_sound in H; try (apply RH_local_length; assumption).
    destruct H as (y & (s & t & u & Hs & Ht & Hu & Hsum & ->) & Hcube).
    eexists. split; [exists s, t, u; repeat split; assumption || reflexivity|].
    apply in_box_local; [assumption|apply LL|]. rewrite local_affine3 by assumption. exact Hcube.
  - intros (x & (s & t & u & Hs & Ht & Hu & Hsum & ->) & Hbox).
    apply (local_triangle_complete _ _ _ (RH_local_coordinates r (vadd (vscale s a) (vadd (vscale t b) (vscale u c)))));
      try (apply RH_local_length; assumption).
    + rewrite local_affine3 by assumption. exists s, t, u. repeat split; assumption || reflexivity.
    + apply in_box_local; [assumption|apply LL|exact Hbox].
Qed.
