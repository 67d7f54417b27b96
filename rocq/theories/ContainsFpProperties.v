(** C85: Element::contains_local with IEEE doubles.  [val x] is the real number a finite double [x] stands for; [in_reference e eps] (ShapeSpec.v) is the
    reference element of [e] with every side moved outwards by [eps]. *)

From Coq Require Import ZArith Reals Lra Lia Psatz List Bool.
From Coq Require Import SpecFloat.
From Flocq Require Import Core.Core IEEE754.BinarySingleNaN.
From Verif Require Import ShapeModel ShapeSpec FpModel FpProofs GridFpProofs GridFpAroundProofs ShapeFpModel ShapeFpProofs ContainsFpModel ContainsFpProofs.
From Verif Require ShapeFpProperties.
Import ListNotations.
Open Scope R_scope.

(** The rectangular quads have no such query. *)
Definition has_query (e : element) : Prop := e <> RectangularQuad_Linear /\ e <> RectangularQuad_Quadratic.
Definition tolerance (eps : double) : Prop := fin eps /\ 0 <= val eps <= 1.

Ltac coordinates xi H := destruct xi as [|x [|y [|w [|? ?]]]]; cbn in H; try discriminate H; clear H.

Lemma some_true : forall b, Some b = Some true <-> b = true.
Proof. intros b. split; [intros H; injection H as H; exact H|intros ->; reflexivity]. Qed.

(** On the elements that are boxes the answer is exact, for every list of doubles, NaN and infinities included: the bound is 1 + eps rounded. *)
Theorem C85_box_exact : forall e xi eps, simplex e = false -> has_query e -> length xi = CanonicalDimension e -> tolerance eps ->
  (fcontains_local e xi eps = Some true <-> Forall (fun x => fin x /\ Rabs (val x) <= val (fadd (of_int 1) eps)) xi) /\
  Rabs (val (fadd (of_int 1) eps) - (1 + val eps)) <= / IZR (2 ^ 52) /\ 1 <= val (fadd (of_int 1) eps).
Proof.
  intros e xi eps Hs [N1 N2] Hl [F B]. destruct (bounds eps F B) as (Fl & Fh & Vl & Vh & R & D). split.
  - assert (I : forall x, fIN_CLOSED_INTERVAL (fsub (of_int (-1)) eps) x (fadd (of_int 1) eps) = true <-> fin x /\ Rabs (val x) <= val (fadd (of_int 1) eps)).
    { intros x. rewrite (interval_exact _ _ x Fl Fh) by (rewrite ?Vl, ?Vh; lra). split; intros [Fx H]; (split; [exact Fx|]); [apply Rabs_le, H|apply Rabs_le_inv, H]. }
    assert (N : forall P : double -> Prop, Forall P [] <-> True) by (intros P; split; [trivial|intros _; apply Forall_nil]).
    destruct e; try discriminate Hs; try congruence; coordinates xi Hl; unfold fcontains_local; cbn [nth]; rewrite some_true, ?andb_true_iff, ?I, ?Forall_cons_iff, N; tauto.
  - rewrite Vh. split; [|lra]. eapply Rle_trans; [exact D|]. rewrite u_val. change (2 ^ 52)%Z with 4503599627370496%Z. lra.
Qed.
Print Assumptions C85_box_exact.

(** On every element: if the answer is yes, the coordinates are finite and the point is in the element enlarged by eps + 2^-46. *)
Theorem C85_sound : forall e xi eps, has_query e -> length xi = CanonicalDimension e -> tolerance eps ->
  fcontains_local e xi eps = Some true -> Forall fin xi /\ in_reference e (val eps + / IZR (2 ^ 46)) (map val xi).
Proof.
  intros e xi eps Q Hl T H. unfold in_reference. rewrite map_length. pose proof T as [F B]. fold slack. assert (SP : 4 * / IZR (2 ^ 52) < slack) by (unfold slack; change (2 ^ 52)%Z with 4503599627370496%Z; change (2 ^ 46)%Z with 70368744177664%Z; lra).
  assert (P52 : 0 < / IZR (2 ^ 52)) by (change (2 ^ 52)%Z with 4503599627370496%Z; lra).
  destruct (simplex e) eqn:Hs.
  - destruct e; try discriminate Hs; coordinates xi Hl; unfold fcontains_local in H; cbn [nth] in H; rewrite some_true, ?andb_true_iff in H;
    [destruct H as (H1 & H2 & H3); destruct (triangle_sound eps x y F B H1 H2 H3) as (A1 & A2 & A3 & A4 & A5); split; [repeat (apply Forall_cons || apply Forall_nil); assumption|]; split; [reflexivity|]; split; [repeat (apply Forall_cons || apply Forall_nil); lra|cbn; lra]|destruct H as (H1 & H2 & H3); destruct (triangle_sound eps x y F B H1 H2 H3) as (A1 & A2 & A3 & A4 & A5); split; [repeat (apply Forall_cons || apply Forall_nil); assumption|]; split; [reflexivity|]; split; [repeat (apply Forall_cons || apply Forall_nil); lra|cbn; lra]
    |destruct H as (H1 & H2 & H3 & H4); destruct (tetra_sound eps x y w F B H1 H2 H3 H4) as (A1 & A2 & A3 & A4 & A5 & A6 & A7); split; [repeat (apply Forall_cons || apply Forall_nil); assumption|]; split; [reflexivity|]; split; [repeat (apply Forall_cons || apply Forall_nil); lra|cbn; lra]|destruct H as (H1 & H2 & H3 & H4); destruct (tetra_sound eps x y w F B H1 H2 H3 H4) as (A1 & A2 & A3 & A4 & A5 & A6 & A7); split; [repeat (apply Forall_cons || apply Forall_nil); assumption|]; split; [reflexivity|]; split; [repeat (apply Forall_cons || apply Forall_nil); lra|cbn; lra]].
  - destruct (C85_box_exact e xi eps Hs Q Hl T) as (I & D & _). apply I in H. apply Rabs_le_inv in D. split; [eapply Forall_impl; [|exact H]; intros a [A _]; exact A|]. split; [exact Hl|].
    apply Forall_map. eapply Forall_impl; [|exact H]. intros a [_ A]. apply Rabs_le_inv in A. cbn beta. lra.
Qed.
Print Assumptions C85_sound.

(** Conversely the points of the element enlarged by eps - 2^-46 are accepted. *)
Theorem C85_complete : forall e xi eps, has_query e -> tolerance eps -> Forall fin xi -> in_reference e (val eps - / IZR (2 ^ 46)) (map val xi) ->
  fcontains_local e xi eps = Some true.
Proof.
  intros e xi eps Q T Fx [Hl H]. rewrite map_length in Hl. pose proof T as [F B]. fold slack in H. assert (SP : 4 * / IZR (2 ^ 52) < slack) by (unfold slack; change (2 ^ 52)%Z with 4503599627370496%Z; change (2 ^ 46)%Z with 70368744177664%Z; lra).
  assert (P52 : 0 < / IZR (2 ^ 52)) by (change (2 ^ 52)%Z with 4503599627370496%Z; lra).
  destruct (simplex e) eqn:Hs.
  - destruct H as [H S]. destruct e; try discriminate Hs; coordinates xi Hl; cbn in S; cbn [map] in H; rewrite ?Forall_cons_iff in H, Fx; unfold fcontains_local; cbn [nth]; rewrite some_true, ?andb_true_iff;
    [destruct H as (H1 & H2 & _); destruct Fx as (F1 & F2 & _); split; [apply flt_neg_intro; try assumption; lra|]; split; [apply flt_neg_intro; try assumption; lra|]; apply triangle_complete; try assumption; lra|destruct H as (H1 & H2 & _); destruct Fx as (F1 & F2 & _); split; [apply flt_neg_intro; try assumption; lra|]; split; [apply flt_neg_intro; try assumption; lra|]; apply triangle_complete; try assumption; lra
    |destruct H as (H1 & H2 & H3 & _); destruct Fx as (F1 & F2 & F3 & _); split; [apply flt_neg_intro; try assumption; lra|]; split; [apply flt_neg_intro; try assumption; lra|]; split; [apply flt_neg_intro; try assumption; lra|]; apply tetra_complete; try assumption; lra|destruct H as (H1 & H2 & H3 & _); destruct Fx as (F1 & F2 & F3 & _); split; [apply flt_neg_intro; try assumption; lra|]; split; [apply flt_neg_intro; try assumption; lra|]; split; [apply flt_neg_intro; try assumption; lra|]; apply tetra_complete; try assumption; lra].
  - destruct (C85_box_exact e xi eps Hs Q Hl T) as (I & D & _). apply I. apply Rabs_le_inv in D. rewrite Forall_map in H. rewrite Forall_forall in *. intros a Ha. split; [apply Fx, Ha|]. apply Rabs_le. specialize (H a Ha). cbn beta in H. lra.
Qed.
Print Assumptions C85_complete.

(** With a tolerance above 2^-52 every double point of the closed reference element is accepted. *)
Theorem C85_closed : forall e xi eps, has_query e -> tolerance eps -> / IZR (2 ^ 52) < val eps -> Forall fin xi -> in_reference e 0 (map val xi) ->
  fcontains_local e xi eps = Some true.
Proof.
  intros e xi eps Q T L Fx [Hl H]. rewrite map_length in Hl. pose proof T as [F B]. assert (P52 : 0 < / IZR (2 ^ 52)) by (change (2 ^ 52)%Z with 4503599627370496%Z; lra).
  destruct (simplex e) eqn:Hs.
  - destruct H as [H S]. destruct e; try discriminate Hs; coordinates xi Hl; cbn in S; cbn [map] in H; rewrite ?Forall_cons_iff in H, Fx; unfold fcontains_local; cbn [nth]; rewrite some_true, ?andb_true_iff;
    [destruct H as (H1 & H2 & _); destruct Fx as (F1 & F2 & _); split; [apply flt_neg_intro; try assumption; lra|]; split; [apply flt_neg_intro; try assumption; lra|]; apply triangle_closed; try assumption; lra|destruct H as (H1 & H2 & _); destruct Fx as (F1 & F2 & _); split; [apply flt_neg_intro; try assumption; lra|]; split; [apply flt_neg_intro; try assumption; lra|]; apply triangle_closed; try assumption; lra
    |destruct H as (H1 & H2 & H3 & _); destruct Fx as (F1 & F2 & F3 & _); split; [apply flt_neg_intro; try assumption; lra|]; split; [apply flt_neg_intro; try assumption; lra|]; split; [apply flt_neg_intro; try assumption; lra|]; apply tetra_closed; try assumption; try lra; change (bpow radix2 (-52)) with (/ IZR (2 ^ 52)); exact L|destruct H as (H1 & H2 & H3 & _); destruct Fx as (F1 & F2 & F3 & _); split; [apply flt_neg_intro; try assumption; lra|]; split; [apply flt_neg_intro; try assumption; lra|]; split; [apply flt_neg_intro; try assumption; lra|]; apply tetra_closed; try assumption; try lra; change (bpow radix2 (-52)) with (/ IZR (2 ^ 52)); exact L].
  - destruct (C85_box_exact e xi eps Hs Q Hl T) as (I & _ & D). apply I. rewrite Forall_map in H. rewrite Forall_forall in *. intros a Ha. split; [apply Fx, Ha|]. apply Rabs_le. specialize (H a Ha). cbn beta in H. lra.
Qed.
Print Assumptions C85_closed.

(** On a triangle and on the boxes any positive tolerance will do; on the boxes also none. *)
Theorem C85_closed_triangle : forall e xi eps, e = Triangle_Linear \/ e = Triangle_Quadratic -> tolerance eps -> 0 < val eps -> Forall fin xi -> in_reference e 0 (map val xi) ->
  fcontains_local e xi eps = Some true.
Proof.
  intros e xi eps He [F B] L Fx [Hl H]. rewrite map_length in Hl. assert (Hs : simplex e = true) by (destruct He as [-> | ->]; reflexivity). rewrite Hs in H. destruct H as [H S].
  destruct He as [-> | ->]; coordinates xi Hl; cbn in S; cbn [map] in H; rewrite ?Forall_cons_iff in H, Fx; unfold fcontains_local; cbn [nth]; rewrite some_true, ?andb_true_iff.
  all: destruct H as (H1 & H2 & _); destruct Fx as (F1 & F2 & _); split; [apply flt_neg_intro; try assumption; lra|]; split; [apply flt_neg_intro; try assumption; lra|]; apply triangle_closed; try assumption; lra.
Qed.
Print Assumptions C85_closed_triangle.
Theorem C85_closed_box : forall e xi eps, simplex e = false -> has_query e -> tolerance eps -> Forall fin xi -> in_reference e 0 (map val xi) -> fcontains_local e xi eps = Some true.
Proof.
  intros e xi eps Hs Q T Fx [Hl H]. rewrite map_length in Hl. rewrite Hs in H. destruct (C85_box_exact e xi eps Hs Q Hl T) as (I & _ & D). apply I. rewrite Forall_map in H. rewrite Forall_forall in *. intros a Ha. split; [apply Fx, Ha|]. apply Rabs_le. specialize (H a Ha). cbn beta in H. lra.
Qed.
Print Assumptions C85_closed_box.

(** The default tolerances, 1e-10 and (from Python) 1e-15: every point of the closed element is accepted, and a point farther than 2e-10 (2e-14) from it is not. *)
Lemma quotient_val : forall k, (1 <= k <= 2 ^ 53)%Z -> fin (fdiv (of_int 1) (of_int k)) /\ Rabs (val (fdiv (of_int 1) (of_int k)) - / IZR k) <= u.
Proof.
  intros k H. destruct one_val as [F1 V1]. destruct (of_int_exact k) as [Fk Vk]; [lia|]. assert (P : 1 <= IZR k) by (apply IZR_le; lia). assert (B1 : 1 <= big) by (change 1 with (bpow radix2 0); apply bpow_le; lia).
  assert (Q : 0 < / IZR k <= 1) by (split; [apply Rinv_0_lt_compat; lra|apply Rmult_le_reg_r with (IZR k); [lra|rewrite Rinv_l; lra]]).
  assert (Q' : / IZR (2 ^ 53) <= / IZR k) by (apply Rinv_le_contravar; [lra|apply IZR_le; lia]).
  assert (E : val (of_int 1) / val (of_int k) = / IZR k) by (rewrite V1, Vk; unfold Rdiv; ring).
  destruct (div_err (of_int 1) (of_int k) F1) as (F & d & t & Hd & _ & V & Z); [rewrite Vk; lra|rewrite E; apply Rabs_le; lra|]. split; [exact F|]. rewrite V, E, Z.
  - replace (/ IZR k * (1 + d) + 0 - / IZR k) with (/ IZR k * d) by ring. rewrite Rabs_mult, (Rabs_pos_eq (/ IZR k)) by lra. pose proof u_pos. pose proof (Rabs_pos d). nra.
  - rewrite E, Rabs_pos_eq by lra. apply Rle_trans with (2 := Q'). change (/ IZR (2 ^ 53)) with (bpow radix2 (-53)). apply bpow_le. lia.
Qed.
Theorem C85_defaults : forall e xi eps bound, has_query e -> length xi = CanonicalDimension e ->
  (eps = default_eps /\ bound = 2 / 10 ^ 10 \/ eps = python_eps /\ bound = 2 / 10 ^ 14) ->
  (Forall fin xi -> in_reference e 0 (map val xi) -> fcontains_local e xi eps = Some true) /\
  (fcontains_local e xi eps = Some true -> Forall fin xi /\ in_reference e bound (map val xi)).
Proof.
  intros e xi eps bound Q Hl E.
  assert (T : tolerance eps /\ / IZR (2 ^ 52) < val eps /\ val eps + / IZR (2 ^ 46) <= bound).
  { unfold tolerance. change (2 ^ 52)%Z with 4503599627370496%Z. change (2 ^ 46)%Z with 70368744177664%Z. destruct E as [[-> ->]|[-> ->]].
    - destruct (quotient_val (10 ^ 10)) as [F D]; [lia|]. fold default_eps in F, D. rewrite u_val in D. apply Rabs_le_inv in D. change (10 ^ 10)%Z with 10000000000%Z in D. split; [split; [exact F|lra]|lra].
    - destruct (quotient_val (10 ^ 15)) as [F D]; [lia|]. fold python_eps in F, D. rewrite u_val in D. apply Rabs_le_inv in D. change (10 ^ 15)%Z with 1000000000000000%Z in D. split; [split; [exact F|lra]|lra]. }
  destruct T as (T & L & U). split; [intros Fx H; apply C85_closed; assumption|]. intros H. destruct (C85_sound e xi eps Q Hl T H) as [A [B C]]. split; [exact A|]. split; [exact B|].
  destruct (simplex e).
  - destruct C as [C S]. split; [|lra]. eapply Forall_impl; [|exact C]. cbn beta. intros; lra.
  - eapply Forall_impl; [|exact C]. cbn beta. intros; lra.
Qed.
Print Assumptions C85_defaults.

(** The bound 2^-52 for tetrahedra is not an artefact: a point of the closed tetrahedron is refused with every tolerance up to 2^-55. *)
Theorem C85_tetrahedron_refuted : exists xi, Forall fin xi /\ in_reference Tetrahedron_Linear 0 (map val xi) /\
  forall eps, tolerance eps -> val eps <= / IZR (2 ^ 55) -> fcontains_local Tetrahedron_Linear xi eps = Some false.
Proof.
  exists ShapeFpProperties.tetrahedron_point. destruct ShapeFpProperties.tetrahedron_point_val as [F E]. split; [exact F|]. split.
  - rewrite E. change (2 ^ 55)%Z with 36028797018963968%Z. split; [reflexivity|]. split; [repeat (apply Forall_cons; [lra|]); apply Forall_nil|]. unfold Rsum. cbn [fold_right]. lra.
  - intros eps [Fe B] L. unfold fcontains_local. destruct (flt (fneg eps) (fsub (fsub (fsub (of_int 1) (nth 0 ShapeFpProperties.tetrahedron_point (of_int 0))) (nth 1 ShapeFpProperties.tetrahedron_point (of_int 0)))
      (nth 2 ShapeFpProperties.tetrahedron_point (of_int 0)))) eqn:G; [exfalso|rewrite !andb_false_r; reflexivity].
    assert (C : B2SF (fsub (fsub (fsub (of_int 1) (nth 0 ShapeFpProperties.tetrahedron_point (of_int 0))) (nth 1 ShapeFpProperties.tetrahedron_point (of_int 0)))
      (nth 2 ShapeFpProperties.tetrahedron_point (of_int 0))) = S754_finite true (2 ^ 52) (-107)) by (vm_compute; reflexivity).
    set (z := fsub _ _) in *. assert (V : val z = - / IZR (2 ^ 55)).
    { rewrite val_SF, C. cbn [SF2R cond_Zopp]. unfold F2R. cbn [Fnum Fexp]. change (bpow radix2 (-107)) with (/ IZR (2 ^ 107)). change (Z.neg (2 ^ 52)) with (- 2 ^ 52)%Z.
      rewrite opp_IZR. change (2 ^ 107)%Z with (2 ^ 52 * 2 ^ 55)%Z. rewrite mult_IZR.
      change (Z.pos (2 ^ 52)) with (2 ^ 52)%Z. assert (P1 : 0 < IZR (2 ^ 52)) by (apply IZR_lt; reflexivity). assert (P2 : 0 < IZR (2 ^ 55)) by (apply IZR_lt; reflexivity). revert P1 P2. generalize (IZR (2 ^ 52)) (IZR (2 ^ 55)). intros a b P1 P2. field. lra. }
    destruct (flt_neg eps z Fe G) as [I|[_ H]]; [rewrite I in C; discriminate C|]. rewrite V in H. lra.
Qed.
Print Assumptions C85_tetrahedron_refuted.
(** Without a tolerance the boundary of a simplex is refused, as with exact numbers (C22). *)
Theorem C85_zero_tolerance_refuted : forall e, simplex e = true -> in_reference e 0 (map val (repeat (of_int 0) (CanonicalDimension e))) /\
  fcontains_local e (repeat (of_int 0) (CanonicalDimension e)) (of_int 0) = Some false.
Proof.
  intros e Hs. destruct zero_val as [_ V]. destruct e; try discriminate Hs; (split; [|vm_compute; reflexivity]); cbn [CanonicalDimension repeat map]; rewrite V; (split; [reflexivity|]); cbn [simplex];
    (split; [repeat (apply Forall_cons; [lra|]); apply Forall_nil|cbn; lra]).
Qed.
Print Assumptions C85_zero_tolerance_refuted.

(** The hypotheses are met, and the answers on a point inside, on a corner, outside, at infinity and at no point. *)
Example C85_witness : tolerance default_eps /\
  fcontains_local Tetrahedron_Linear [dbl 1 (-2); dbl 1 (-2); dbl 1 (-1)] default_eps = Some true /\
  fcontains_local Hexahedron_Linear [of_int 1; of_int (-1); of_int 1] (of_int 0) = Some true /\
  fcontains_local Triangle_Quadratic [dbl 1 (-1); dbl 3 (-2)] default_eps = Some false /\
  fcontains_local Quad_Linear [B754_infinity false; of_int 0] default_eps = Some false /\
  fcontains_local Segment_Linear [B754_nan] default_eps = Some false.
Proof.
  split; [|repeat split; vm_compute; reflexivity]. destruct (quotient_val (10 ^ 10)) as [F D]; [lia|]. fold default_eps in F, D. rewrite u_val in D. apply Rabs_le_inv in D. change (10 ^ 10)%Z with 10000000000%Z in D.
  split; [exact F|lra].
Qed.
