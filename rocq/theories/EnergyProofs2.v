(** Bodies that store no energy have moved rigidly (C96). *)

From Coq Require Import ZArith Reals Lra Lia Psatz.
From Coquelicot Require Import Coquelicot.
From Coq Require Import List Arith Bool.
From Verif Require Import GridGeoModel ShapeModel ShapeSpec ShapeProofs ShapeFieldProofs ShapeGaussProofs LinAlg LinAlgProofs RectSpec NewtonLocalProofs BarycentricModel MappingSpec MappingProofs TensorModel TensorSpec
  MaterialModel MaterialSpec MaterialProofs MaterialProperties SparseModel SparseProofs Sums HyperModel HyperSpec HyperProofs HyperProofs2 HyperProofs3 HyperProofs4 HyperProperties
  SpectrumProofs StabilitySpec StabilityProofs StabilityProofs2 StabilityProofs3 StabilityProofs4 StabilityProofs5 StabilityProofs7 StabilityProofs8 EnergySpec EnergyProofs.
Import ListNotations.
Open Scope R_scope.

(** ** Rotations *)
Definition turn (Q : list (list R)) (u : vec) : vec := fun i => sum3 (fun l => entries Q i l * u l).
Definition dotp (u v : vec) : R := sum3 (fun i => u i * v i).
Definition cross (u v : vec) : vec := fun i => match i with O => u 1%nat * v 2%nat - u 2%nat * v 1%nat | 1%nat => u 2%nat * v 0%nat - u 0%nat * v 2%nat | _ => u 0%nat * v 1%nat - u 1%nat * v 0%nat end.

Lemma turn_dot Q u v : cauchy_green Q = Id3 -> dotp (turn Q u) (turn Q v) = dotp u v.
Proof.
  intros C. assert (G := fun i j Hi Hj => isometry_gram Q i j C Hi Hj). unfold dotp, turn.
  transitivity (sum3 (fun i => sum3 (fun j => u i * v j * sum3 (fun k => entries Q k i * entries Q k j)))).
  - unfold sum3. ring.
  - unfold sum3 at 1 2. rewrite !G by lia. unfold delta, sum3. cbn [Nat.eqb]. ring.
Qed.
Lemma rotation_adj Q i j : rotation Q -> (i < 3)%nat -> (j < 3)%nat -> entries Q j i = adj (entries Q) i j.
Proof.
  intros (M & C & D) Hi Hj. assert (G := fun i j Hi Hj => isometry_gram Q i j C Hi Hj). rewrite (det_entries Q M) in D.
  assert (A : forall k l, (k < 3)%nat -> (l < 3)%nat -> sum3 (fun n => entries Q k n * adj (entries Q) n l) = delta k l * det3 (entries Q)).
  { intros k l Hk Hl. unfold adj, det3, sum3, delta. destruct k as [|[|[|]]]; try lia; destruct l as [|[|[|]]]; try lia; cbn; ring. }
  transitivity (sum3 (fun k => entries Q k i * sum3 (fun n => entries Q k n * adj (entries Q) n j))).
  - unfold sum3 at 1. rewrite !A, D by lia. unfold delta. destruct j as [|[|[|]]]; try lia; cbn [Nat.eqb]; ring.
  - transitivity (sum3 (fun n => sum3 (fun k => entries Q k i * entries Q k n) * adj (entries Q) n j)); [unfold sum3; ring|].
    unfold sum3 at 1. rewrite !G by lia. unfold delta. destruct i as [|[|[|]]]; try lia; cbn [Nat.eqb]; ring.
Qed.
Lemma turn_cross Q u v i : rotation Q -> (i < 3)%nat -> turn Q (cross u v) i = cross (turn Q u) (turn Q v) i.
Proof.
  intros H Hi. unfold turn at 1. unfold sum3. rewrite !(rotation_adj Q _ i H) by lia. unfold cross, turn, adj, sum3.
  destruct i as [|[|[|]]]; try lia; cbn; ring.
Qed.
Lemma no_component (u v w z : vec) : triple u v w <> 0 -> dotp z u = 0 -> dotp z v = 0 -> dotp z w = 0 -> forall i, (i < 3)%nat -> z i = 0.
Proof.
  intros N U V W i Hi. unfold dotp, sum3 in U, V, W. unfold triple in N.
  match type of N with ?t <> 0 => apply (Rmult_eq_reg_r t); [|exact N] end. rewrite Rmult_0_l.
  destruct i as [|[|[|]]]; try lia.
  - transitivity ((z 0%nat * u 0%nat + z 1%nat * u 1%nat + z 2%nat * u 2%nat) * (v 1%nat * w 2%nat - v 2%nat * w 1%nat) + (z 0%nat * v 0%nat + z 1%nat * v 1%nat + z 2%nat * v 2%nat) * (w 1%nat * u 2%nat - w 2%nat * u 1%nat) + (z 0%nat * w 0%nat + z 1%nat * w 1%nat + z 2%nat * w 2%nat) * (u 1%nat * v 2%nat - u 2%nat * v 1%nat)); [ring|rewrite U, V, W; ring].
  - transitivity ((z 0%nat * u 0%nat + z 1%nat * u 1%nat + z 2%nat * u 2%nat) * (v 2%nat * w 0%nat - v 0%nat * w 2%nat) + (z 0%nat * v 0%nat + z 1%nat * v 1%nat + z 2%nat * v 2%nat) * (w 2%nat * u 0%nat - w 0%nat * u 2%nat) + (z 0%nat * w 0%nat + z 1%nat * w 1%nat + z 2%nat * w 2%nat) * (u 2%nat * v 0%nat - u 0%nat * v 2%nat)); [ring|rewrite U, V, W; ring].
  - transitivity ((z 0%nat * u 0%nat + z 1%nat * u 1%nat + z 2%nat * u 2%nat) * (v 0%nat * w 1%nat - v 1%nat * w 0%nat) + (z 0%nat * v 0%nat + z 1%nat * v 1%nat + z 2%nat * v 2%nat) * (w 0%nat * u 1%nat - w 1%nat * u 0%nat) + (z 0%nat * w 0%nat + z 1%nat * w 1%nat + z 2%nat * w 2%nat) * (u 0%nat * v 1%nat - u 1%nat * v 0%nat)); [ring|rewrite U, V, W; ring].
Qed.
Definition apart (u v : vec) : Prop := cross u v 0%nat <> 0 \/ cross u v 1%nat <> 0 \/ cross u v 2%nat <> 0.
Lemma apart_triple u v : apart u v -> triple u v (cross u v) <> 0.
Proof.
  intros A. replace (triple u v (cross u v)) with (Rsqr (cross u v 0%nat) + Rsqr (cross u v 1%nat) + Rsqr (cross u v 2%nat)) by (unfold triple, cross, Rsqr; ring).
  pose proof (Rle_0_sqr (cross u v 0%nat)). pose proof (Rle_0_sqr (cross u v 1%nat)). pose proof (Rle_0_sqr (cross u v 2%nat)).
  destruct A as [A|[A|A]]; apply Rsqr_pos_lt in A; lra.
Qed.
Lemma triple_apart u v w : triple u v w <> 0 -> apart u v.
Proof.
  intros N. unfold apart. destruct (Req_dec (cross u v 0%nat) 0) as [Z0|]; [|left; assumption]. destruct (Req_dec (cross u v 1%nat) 0) as [Z1|]; [|right; left; assumption].
  right. right. intros Z2. apply N. transitivity (cross u v 0%nat * w 0%nat + cross u v 1%nat * w 1%nat + cross u v 2%nat * w 2%nat); [unfold triple, cross; ring|rewrite Z0, Z1, Z2; ring].
Qed.
(** Two rotations that agree on two directions are the same. *)
Lemma same_rotation P Q u v : rotation P -> rotation Q -> apart u v -> same (turn P u) (turn Q u) -> same (turn P v) (turn Q v) -> P = Q.
Proof.
  intros RP RQ A U V.
  assert (W : same (turn P (cross u v)) (turn Q (cross u v))).
  { intros i Hi. rewrite !turn_cross by assumption. unfold cross. destruct i as [|[|[|]]]; try lia; rewrite !U, !V by lia; reflexivity. }
  rewrite <- (matrix3_of_entries P (proj1 RP)), <- (matrix3_of_entries Q (proj1 RQ)). apply of_entries_ext. intros i j Hi Hj.
  cut (entries P i j - entries Q i j = 0); [lra|]. revert j Hj.
  apply (no_component u v (cross u v) (fun j => entries P i j - entries Q i j) (apart_triple u v A)).
  - specialize (U i Hi). unfold turn in U. unfold dotp, sum3 in *. lra.
  - specialize (V i Hi). unfold turn in V. unfold dotp, sum3 in *. lra.
  - specialize (W i Hi). unfold turn in W. unfold dotp, sum3 in *. lra.
Qed.

(** ** A corner A of a box of points, its neighbours turned by other rotations *)
Definition arm (A a : vec) (P : list (list R)) (B b : vec) (Q : list (list R)) : Prop := same (sub b a) (turn P (sub B A)) /\ same (sub b a) (turn Q (sub B A)).
Lemma dotp_ext u u' v v' : same u u' -> same v v' -> dotp u v = dotp u' v'.
Proof. intros U V. unfold dotp, sum3. rewrite !U, !V by lia. reflexivity. Qed.
Lemma dotp_zero z : dotp z z = 0 -> forall i, (i < 3)%nat -> z i = 0.
Proof.
  intros D i Hi. unfold dotp, sum3 in D. pose proof (Rle_0_sqr (z 0%nat)). pose proof (Rle_0_sqr (z 1%nat)). pose proof (Rle_0_sqr (z 2%nat)). unfold Rsqr in *.
  destruct i as [|[|[|]]]; try lia; apply Rsqr_0_uniq; unfold Rsqr; lra.
Qed.
(** Coordinates in the basis p, q, p ^ q. *)
Lemma decomposed p q r : apart p q -> exists s t h, same r (fun i => s * p i + t * q i + h * cross p q i) /\ triple p q r = h * dotp (cross p q) (cross p q).
Proof.
  intros A. pose proof (apart_triple p q A) as N. set (w := cross p q) in *. set (W := triple p q w) in *.
  exists (triple r q w / W), (triple p r w / W), (triple p q r / W). split.
  - intros i Hi. apply (Rmult_eq_reg_r W); [|exact N].
    replace ((triple r q w / W * p i + triple p r w / W * q i + triple p q r / W * w i) * W) with (triple r q w * p i + triple p r w * q i + triple p q r * w i) by (field; exact N).
    unfold W, w, triple, cross. destruct i as [|[|[|]]]; try lia; ring.
  - replace (dotp w w) with W; [field; exact N|]. unfold W, w, triple, dotp, cross, sum3. ring.
Qed.
Section Face.
Context (P Q T : list (list R)) (p q r r' : vec).
Hypothesis RP : rotation P.
Hypothesis RQ : rotation Q.
Hypothesis RT : rotation T.
Hypothesis Ep : same (turn P p) (turn Q p).
Hypothesis Eq : same (turn P q) (turn T q).
Hypothesis X1 : same r' (turn Q r).
Hypothesis X2 : same r' (turn T r).
Hypothesis A1 : apart p q.
Hypothesis A2 : apart p r.
Hypothesis A3 : apart q r.
Lemma face_spread : P = Q -> P = T.
Proof. intros E. apply (same_rotation P T q r RP RT A3 Eq). intros i Hi. rewrite <- X2, X1, E by exact Hi. reflexivity. Qed.
Lemma face_spread' : P = T -> P = Q.
Proof. intros E. apply (same_rotation P Q p r RP RQ A2 Ep). intros i Hi. rewrite <- X1, X2, E by exact Hi. reflexivity. Qed.
Lemma face_turn : (P = Q /\ P = T) \/ (triple p q r <> 0 /\ exists s t h, triple p q r = h * dotp (cross p q) (cross p q) /\
  same r (fun i => s * p i + t * q i + h * cross p q i) /\ same r' (fun i => s * turn P p i + t * turn P q i - h * turn P (cross p q) i)).
Proof.
  destruct (decomposed p q r A1) as (s & t & h & ES & EH).
  set (n := cross p q) in *. set (N := dotp n n) in *.
  assert (PN : 0 < N). { unfold N, n. pose proof (apart_triple p q A1) as Z. replace (triple p q (cross p q)) with (dotp (cross p q) (cross p q)) in Z by (unfold triple, dotp, cross, sum3; ring).
    unfold dotp, sum3 in *. pose proof (Rle_0_sqr (cross p q 0%nat)). pose proof (Rle_0_sqr (cross p q 1%nat)). pose proof (Rle_0_sqr (cross p q 2%nat)). unfold Rsqr in *. lra. }
  assert (LIN : forall (k : R) i, turn P (fun i => s * p i + t * q i + k * n i) i = s * turn P p i + t * turn P q i + k * turn P n i) by (intros k i; unfold turn, sum3; ring).
  assert (D1 : dotp r' (turn P p) = dotp r p) by (rewrite (dotp_ext _ _ _ _ X1 Ep); apply turn_dot; apply RQ).
  assert (D2 : dotp r' (turn P q) = dotp r q) by (rewrite (dotp_ext _ _ _ _ X2 Eq); apply turn_dot; apply RT).
  assert (D3 : dotp r' r' = dotp r r) by (rewrite (dotp_ext _ _ _ _ X1 X1); apply turn_dot; apply RQ).
  assert (O1 : dotp n p = 0) by (unfold n, dotp, cross, sum3; ring). assert (O2 : dotp n q = 0) by (unfold n, dotp, cross, sum3; ring).
  set (w := fun k : R => turn P (fun i => s * p i + t * q i + k * n i)).
  set (g := dotp r' (turn P n)).
  assert (DW : forall k, dotp r' (w k) = s * dotp r p + t * dotp r q + k * g).
  { intros k. transitivity (s * dotp r' (turn P p) + t * dotp r' (turn P q) + k * dotp r' (turn P n)); [unfold w, dotp, turn, sum3; ring|rewrite D1, D2; reflexivity]. }
  assert (Er : dotp r p = s * dotp p p + t * dotp p q) by (rewrite (dotp_ext _ _ p p ES (fun i Hi => eq_refl)); transitivity (s * dotp p p + t * dotp p q + h * dotp n p); [unfold dotp, sum3; ring|rewrite O1; ring]).
  assert (Es : dotp r q = s * dotp p q + t * dotp q q) by (rewrite (dotp_ext _ _ q q ES (fun i Hi => eq_refl)); transitivity (s * dotp p q + t * dotp q q + h * dotp n q); [unfold dotp, sum3; ring|rewrite O2; ring]).
  assert (WW : forall k, dotp (w k) (w k) = s * dotp r p + t * dotp r q + k * k * N).
  { intros k. unfold w. rewrite (turn_dot P _ _ (proj1 (proj2 RP))). rewrite Er, Es.
    transitivity (s * (s * dotp p p + t * dotp p q) + t * (s * dotp p q + t * dotp q q) + k * k * N + 2 * k * (s * dotp n p + t * dotp n q)); [unfold N, dotp, sum3; ring|rewrite O1, O2; ring]. }
  assert (RR : dotp r r = s * dotp r p + t * dotp r q + h * h * N).
  { rewrite <- (WW h). unfold w. rewrite (turn_dot P _ _ (proj1 (proj2 RP))). apply dotp_ext; exact ES. }
  (* r' is determined up to the sign of its component along P n *)
  set (k := g / N).
  assert (GK : g = k * N) by (unfold k; field; lra).
  assert (KK : k * k = h * h).
  { (* r' = w k, since p, q and n make a basis *)
    assert (RW : same r' (w k)).
    { assert (B : triple (turn P p) (turn P q) (cross (turn P p) (turn P q)) <> 0).
      { replace (triple (turn P p) (turn P q) (cross (turn P p) (turn P q))) with (dotp (cross (turn P p) (turn P q)) (cross (turn P p) (turn P q))) by (unfold triple, dotp, cross, sum3; ring).
        rewrite (dotp_ext _ (turn P n) _ (turn P n)); [rewrite (turn_dot P _ _ (proj1 (proj2 RP))); fold N; lra| |]; intros i Hi; symmetry; apply turn_cross; assumption. }
      assert (Z : forall i, (i < 3)%nat -> sub r' (w k) i = 0).
      { apply (no_component _ _ _ (sub r' (w k)) B).
        - transitivity (dotp r' (turn P p) - dotp (w k) (turn P p)); [unfold dotp, sub, sum3; ring|]. rewrite D1. unfold w. rewrite (turn_dot P _ _ (proj1 (proj2 RP))).
          transitivity (dotp r p - (s * dotp p p + t * dotp p q + k * dotp n p)); [unfold dotp, sum3; ring|rewrite O1, Er; ring].
        - transitivity (dotp r' (turn P q) - dotp (w k) (turn P q)); [unfold dotp, sub, sum3; ring|]. rewrite D2. unfold w. rewrite (turn_dot P _ _ (proj1 (proj2 RP))).
          transitivity (dotp r q - (s * dotp p q + t * dotp q q + k * dotp n q)); [unfold dotp, sum3; ring|rewrite O2, Es; ring].
        - rewrite (dotp_ext _ (sub r' (w k)) _ (turn P n)); [|intros i Hi; reflexivity|intros i Hi; symmetry; apply turn_cross; assumption].
          transitivity (dotp r' (turn P n) - dotp (w k) (turn P n)); [unfold dotp, sub, sum3; ring|]. fold g. unfold w. rewrite (turn_dot P _ _ (proj1 (proj2 RP))).
          transitivity (g - (s * dotp n p + t * dotp n q + k * N)); [unfold N, dotp, sum3; ring|rewrite O1, O2, GK; ring]. }
      intros i Hi. specialize (Z i Hi). unfold sub in Z. lra. }
    apply (Rmult_eq_reg_r N); [|lra]. pose proof (WW k) as W1. rewrite <- (dotp_ext _ _ _ _ RW RW), D3, RR in W1. lra. }
  assert (RW : dotp (sub r' (w k)) (sub r' (w k)) = 0).
  { transitivity (dotp r' r' - 2 * dotp r' (w k) + dotp (w k) (w k)); [unfold dotp, sub, sum3; ring|]. rewrite D3, DW, WW, RR, GK.
    replace (h * h * N) with (k * k * N) by (rewrite KK; reflexivity). ring. }
  assert (RW' : same r' (w k)) by (intros i Hi; pose proof (dotp_zero _ RW i Hi) as Z; unfold sub in Z; lra).
  assert (C : k = h \/ k = - h). { assert (Z : (k - h) * (k + h) = 0) by lra. apply Rmult_integral in Z. destruct Z; [left|right]; lra. }
  destruct C as [C|C].
  - left. assert (R : same r' (turn P r)).
    { intros i Hi. rewrite (RW' i Hi). unfold w. rewrite C. unfold turn, sum3. rewrite !(ES _) by lia. reflexivity. }
    assert (E : P = Q) by (apply (same_rotation P Q p r RP RQ A2 Ep); intros i Hi; rewrite <- R, X1 by exact Hi; reflexivity). split; [exact E|]. apply face_spread. exact E.
  - destruct (Req_dec h 0) as [Z|Z].
    + left. assert (R : same r' (turn P r)).
      { intros i Hi. rewrite (RW' i Hi). unfold w. rewrite C, Z, Ropp_0. unfold turn, sum3. rewrite !(ES _) by lia. rewrite Z. reflexivity. }
      assert (E : P = Q) by (apply (same_rotation P Q p r RP RQ A2 Ep); intros i Hi; rewrite <- R, X1 by exact Hi; reflexivity). split; [exact E|]. apply face_spread. exact E.
    + right. split; [rewrite EH; apply Rmult_integral_contrapositive_currified; lra|]. exists s, t, h. split; [exact EH|]. split; [exact ES|].
      intros i Hi. rewrite (RW' i Hi). unfold w. rewrite LIN, C. ring.
Qed.
End Face.

(** Sense in which Q has turned v about p, after P *)
Definition sense (P Q : list (list R)) (p v : vec) : R := dotp (turn P p) (cross (turn P v) (turn Q v)).
Lemma sense_same P Q p u v : rotation P -> rotation Q -> same (turn P p) (turn Q p) -> apart p v -> 0 <= sense P Q p u * sense P Q p v.
Proof.
  intros RP RQ E A. destruct (decomposed p v u A) as (x & y & z & EU & _).
  assert (TP : same (turn P u) (fun i => x * turn P p i + y * turn P v i + z * cross (turn P p) (turn P v) i)).
  { intros i Hi. rewrite <- turn_cross by assumption. unfold turn, sum3. rewrite !EU by lia. ring. }
  assert (TQ : same (turn Q u) (fun i => x * turn P p i + y * turn Q v i + z * cross (turn P p) (turn Q v) i)).
  { intros i Hi. transitivity (x * turn Q p i + y * turn Q v i + z * turn Q (cross p v) i); [unfold turn, sum3; rewrite !EU by lia; ring|].
    rewrite turn_cross by assumption. rewrite <- (E i Hi). f_equal. f_equal. unfold cross. destruct i as [|[|[|]]]; try lia; rewrite !E by lia; reflexivity. }
  assert (K : sense P Q p u = (y * y + z * z * dotp (turn P p) (turn P p)) * sense P Q p v).
  { unfold sense. generalize dependent (turn P u). generalize dependent (turn Q u). intros uq TQ up TP.
    transitivity (dotp (turn P p) (cross (fun i => x * turn P p i + y * turn P v i + z * cross (turn P p) (turn P v) i) (fun i => x * turn P p i + y * turn Q v i + z * cross (turn P p) (turn Q v) i))).
    - apply dotp_ext; [intros i Hi; reflexivity|]. intros i Hi. unfold cross at 1 2. destruct i as [|[|[|]]]; try lia; rewrite !TP, !TQ by lia; reflexivity.
    - generalize (turn P p) (turn P v) (turn Q v). intros b vp vq. unfold dotp, cross, sum3. ring. }
  rewrite K. rewrite Rmult_assoc. apply Rmult_le_pos.
  - assert (0 <= dotp (turn P p) (turn P p)). { unfold dotp, sum3. pose proof (Rle_0_sqr (turn P p 0%nat)). pose proof (Rle_0_sqr (turn P p 1%nat)). pose proof (Rle_0_sqr (turn P p 2%nat)). unfold Rsqr in *. lra. }
    pose proof (Rle_0_sqr y). pose proof (Rle_0_sqr z). unfold Rsqr in *. pose proof (Rmult_le_pos _ _ H1 H). lra.
  - apply Rle_0_sqr.
Qed.
Lemma mirrored_sense (a b up uq : vec) s t h : same up (fun i => s * a i + t * b i + h * cross a b i) -> same uq (fun i => s * a i + t * b i - h * cross a b i) ->
  dotp a (cross up uq) = - 2 * h * dotp (cross a b) (cross a up).
Proof.
  intros TP TQ.
  transitivity (dotp a (cross (fun i => s * a i + t * b i + h * cross a b i) (fun i => s * a i + t * b i - h * cross a b i))).
  - apply dotp_ext; [intros i Hi; reflexivity|]. intros i Hi. unfold cross at 1 2. destruct i as [|[|[|]]]; try lia; rewrite !TP, !TQ by lia; reflexivity.
  - transitivity (- 2 * h * dotp (cross a b) (cross a (fun i => s * a i + t * b i + h * cross a b i))); [unfold dotp, cross, sum3; ring|].
    f_equal. apply dotp_ext; [intros i Hi; reflexivity|]. intros i Hi. unfold cross at 1 3. destruct i as [|[|[|]]]; try lia; rewrite !TP by lia; reflexivity.
Qed.
(** In a face that is mirrored and not folded the sense is given by the sign of the triple product. *)
Lemma sense_sign P Q p q r r' s t h : rotation P -> same r' (turn Q r) -> same r (fun i => s * p i + t * q i + h * cross p q i) ->
  same r' (fun i => s * turn P p i + t * turn P q i - h * turn P (cross p q) i) -> 
  sense P Q p r = - 2 * h * dotp (cross p q) (cross p r).
Proof.
  intros RP X ER ER'. unfold sense.
  assert (TP : same (turn P r) (fun i => s * turn P p i + t * turn P q i + h * cross (turn P p) (turn P q) i)).
  { intros i Hi. rewrite <- turn_cross by assumption. unfold turn, sum3. rewrite !ER by lia. ring. }
  assert (TQ : same (turn Q r) (fun i => s * turn P p i + t * turn P q i - h * cross (turn P p) (turn P q) i)).
  { intros i Hi. rewrite <- (X i Hi), (ER' i Hi), turn_cross by assumption. reflexivity. }
  transitivity (- 2 * h * dotp (cross (turn P p) (turn P q)) (cross (turn P p) (turn P r))).
  - exact (mirrored_sense _ _ _ _ s t h TP TQ).
  - f_equal. transitivity (dotp (turn P (cross p q)) (turn P (cross p r))); [|apply turn_dot; apply RP]. apply dotp_ext; intros i Hi; symmetry; apply turn_cross; assumption.
Qed.

(** Three faces at a corner: the face (p, q) has its other corner at r, its neighbours are turned by Q and T. *)
Record face (P Q T : list (list R)) (p q r : vec) : Prop := {
  face_P : rotation P; face_Q : rotation Q; face_T : rotation T;
  face_p : same (turn P p) (turn Q p); face_q : same (turn P q) (turn T q); face_r : same (turn Q r) (turn T r);
  face_pq : apart p q; face_pr : apart p r; face_qr : apart q r }.
Lemma face_alternative P Q T p q r : face P Q T p q r -> 0 < dotp (cross p q) (cross p r) -> 0 < dotp (cross q p) (cross q r) ->
  (P = Q /\ P = T) \/ exists h, h <> 0 /\ 0 < - h * sense P Q p r /\ 0 < h * sense P T q r.
Proof.
  intros [RP RQ RT Ep Eq Er A1 A2 A3] U1 U2.
  destruct (face_turn P Q T p q r (turn Q r) RP RQ RT Ep Eq (fun i Hi => eq_refl) Er A1 A2 A3) as [E|(N & s & t & h & EH & ES & ES')]; [left; exact E|right].
  assert (H0 : h <> 0) by (intros Z; apply N; rewrite EH, Z; ring). exists h. split; [exact H0|].
  pose proof (Rsqr_pos_lt _ H0) as PH. unfold Rsqr in PH. split.
  - rewrite (sense_sign P Q p q r (turn Q r) s t h RP (fun i Hi => eq_refl) ES ES').
    replace (- h * (- 2 * h * dotp (cross p q) (cross p r))) with (2 * (h * h) * dotp (cross p q) (cross p r)) by ring. apply Rmult_lt_0_compat; lra.
  - rewrite (sense_sign P T q p r (turn Q r) t s (- h) RP Er).
    + replace (h * (- 2 * - h * dotp (cross q p) (cross q r))) with (2 * (h * h) * dotp (cross q p) (cross q r)) by ring. apply Rmult_lt_0_compat; lra.
    + intros i Hi. rewrite (ES i Hi). unfold cross. destruct i as [|[|[|]]]; try lia; ring.
    + intros i Hi. rewrite (ES' i Hi). unfold turn, cross, sum3. ring.
Qed.
Lemma face_plane P Q T p q r : face P Q T p q r -> triple p q r = 0 -> P = Q /\ P = T.
Proof.
  intros [RP RQ RT Ep Eq Er A1 A2 A3] Z. destruct (face_turn P Q T p q r (turn Q r) RP RQ RT Ep Eq (fun i Hi => eq_refl) Er A1 A2 A3) as [E|(N & _)]; [exact E|contradiction].
Qed.
Lemma face_on P Q T p q r : face P Q T p q r -> (P = Q <-> P = T).
Proof.
  intros [RP RQ RT Ep Eq Er A1 A2 A3]. split.
  - exact (face_spread P Q T q r (turn Q r) RP RT Eq (fun i Hi => eq_refl) Er A3).
  - exact (face_spread' P Q T p r (turn Q r) RP RQ Ep (fun i Hi => eq_refl) Er A2).
Qed.
Lemma corner_unfolded P Q1 Q2 Q3 p1 p2 p3 r12 r23 r31 : face P Q1 Q2 p1 p2 r12 -> face P Q2 Q3 p2 p3 r23 -> face P Q3 Q1 p3 p1 r31 ->
  0 < dotp (cross p1 p2) (cross p1 r12) -> 0 < dotp (cross p2 p1) (cross p2 r12) -> 0 < dotp (cross p2 p3) (cross p2 r23) -> 0 < dotp (cross p3 p2) (cross p3 r23) ->
  0 < dotp (cross p3 p1) (cross p3 r31) -> 0 < dotp (cross p1 p3) (cross p1 r31) -> P = Q1.
Proof.
  intros F12 F23 F31 U1 U2 U3 U4 U5 U6.
  destruct (face_alternative _ _ _ _ _ _ F12 U1 U2) as [[E _]|(h1 & N1 & S1 & S1')]; [exact E|].
  destruct (face_alternative _ _ _ _ _ _ F23 U3 U4) as [[E _]|(h2 & N2 & S2 & S2')]; [apply (face_on _ _ _ _ _ _ F12); exact E|].
  destruct (face_alternative _ _ _ _ _ _ F31 U5 U6) as [[_ E]|(h3 & N3 & S3 & S3')]; [exact E|]. exfalso.
  pose proof (sense_same P Q2 p2 r12 r23 (face_P _ _ _ _ _ _ F12) (face_T _ _ _ _ _ _ F12) (face_q _ _ _ _ _ _ F12) (face_pr _ _ _ _ _ _ F23)) as K2.
  pose proof (sense_same P Q3 p3 r23 r31 (face_P _ _ _ _ _ _ F12) (face_T _ _ _ _ _ _ F23) (face_q _ _ _ _ _ _ F23) (face_pr _ _ _ _ _ _ F31)) as K3.
  pose proof (sense_same P Q1 p1 r31 r12 (face_P _ _ _ _ _ _ F12) (face_T _ _ _ _ _ _ F31) (face_q _ _ _ _ _ _ F31) (face_pr _ _ _ _ _ _ F12)) as K1.
  clear - N1 N2 N3 S1 S1' S2 S2' S3 S3' K1 K2 K3.
  set (a := sense P Q1 p1 r12) in *. set (b := sense P Q2 p2 r12) in *. set (c := sense P Q2 p2 r23) in *. set (e := sense P Q3 p3 r23) in *.
  set (f := sense P Q3 p3 r31) in *. set (g := sense P Q1 p1 r31) in *.
  assert (L : forall h k u v, h <> 0 -> k <> 0 -> 0 < h * u -> 0 < - k * v -> 0 <= u * v -> (0 < h <-> k < 0)).
  { intros h k u v _ _ H1 H2 H3. split; intros H.
    - destruct (Rle_lt_dec 0 k) as [L|L]; [exfalso|exact L]. assert (0 < u) by (apply (Rmult_lt_reg_l h); lra). assert (v < 0) by (destruct (Rle_lt_dec 0 v); [nra|assumption]). nra.
    - destruct (Rle_lt_dec h 0) as [L|L]; [exfalso|exact L]. assert (0 < v) by (apply (Rmult_lt_reg_l (- k)); lra). assert (u < 0) by (destruct (Rle_lt_dec 0 u); [nra|assumption]). nra. }
  pose proof (L h1 h2 b c N1 N2 S1' S2 K2). pose proof (L h2 h3 e f N2 N3 S2' S3 K3). pose proof (L h3 h1 g a N3 N1 S3' S1 K1).
  destruct (Rtotal_order h1 0) as [O1|[O1|O1]], (Rtotal_order h2 0) as [O2|[O2|O2]], (Rtotal_order h3 0) as [O3|[O3|O3]]; try contradiction; try lra; intuition lra.
Qed.

(** ** An element turned by a single rotation *)
Section Turned.
Context (d : domain) (x : list (list R)) (row : list nat) (Q : list (list R)).
Hypothesis Sd : solid d.
Hypothesis RG : regular d.
Hypothesis HF : full (kind d).
Hypothesis Hr : In row (connectivity d).
Hypothesis MQ : matrix3 Q.
Hypothesis HQ : forall q, In q (gauss_nodes (kind d)) -> deformation_gradient d x row (fst q) = Q.
Let n := NumberOfNodes (kind d).
Let X := entries (positions d).
Let rest_of (p c : nat) : R := entries x p c - turn Q (X p) c.
Let y : list (list R) := map (fun p => map (rest_of p) (seq 0 3)) (seq 0 (length (positions d))).

Lemma y_entries p c : (p < length (positions d))%nat -> (c < 3)%nat -> entries y p c = rest_of p c.
Proof.
  intros Hp Hc. unfold y, entries. rewrite (nth_indep _ [] (map (rest_of 0%nat) (seq 0 3))) by (rewrite map_length, seq_length; exact Hp).
  rewrite (map_nth (fun p => map (rest_of p) (seq 0 3))), seq_nth by exact Hp. destruct c as [|[|[|]]]; try lia; reflexivity.
Qed.
Lemma jacobian_y xi c k : (c < 3)%nat -> (k < 3)%nat -> entries (jacobian 3 (kind d) (gather y row) xi) c k =
  entries (jacobian 3 (kind d) (gather x row) xi) c k - sum3 (fun l => entries Q c l * entries (jacobian 3 (kind d) (gather (positions d) row) xi) l k).
Proof.
  intros Hc Hk. unfold sum3. rewrite !(Jv_entries d _ row Sd Hr) by (lia || assumption). cbv beta. rewrite <- !Rsum_scal_l, <- !Rsum_plus, <- Rsum_minus.
  apply Rsum_ext. intros a Ha. apply in_seq in Ha. rewrite y_entries; [|apply (node_lt d row Sd Hr); lia|exact Hc]. unfold rest_of, turn, sum3, X. ring.
Qed.
Lemma rest_matrix xi : matrix3 (jacobian 3 (kind d) (gather (positions d) row) xi).
Proof. change xi with (fst (xi, 0)). rewrite (jacobian_entries d row (xi, 0)); [apply of_entries_matrix3|apply Sd|exact (proj1 (solid_row d row Sd Hr))]. Qed.
Lemma flat_at_gauss q c k : In q (gauss_nodes (kind d)) -> (c < 3)%nat -> (k < 3)%nat -> entries (jacobian 3 (kind d) (gather y row) (fst q)) c k = 0.
Proof.
  intros Hq Hc Hk. rewrite jacobian_y by assumption. rewrite <- (HQ q Hq). unfold deformation_gradient. change (nodes_of_element d row) with (gather (positions d) row).
  rewrite product_inverse; [ring|apply rest_matrix| |exact Hc|exact Hk]. exact (proj1 (Forall_forall _ _) (proj1 (Forall_forall _ _) RG row Hr) q Hq).
Qed.
Lemma flat_anywhere xi c k : length xi = 3%nat -> (c < 3)%nat -> (k < 3)%nat -> entries (jacobian 3 (kind d) (gather y row) xi) c k = 0.
Proof.
  intros L Hc Hk. destruct (spread (kind d) xi HF L) as [ls S]. rewrite (Jv_entries d y row Sd Hr) by assumption. rewrite (Jv_spread d y row xi ls c k S Hk).
  apply (map2_zero _ (fun g => Rsum (map (fun a => entries y (nth a row 0%nat) c * der (kind d) a k (fst g)) (seq 0 (NumberOfNodes (kind d)))))).
  intros g Hg. pose proof (flat_at_gauss g c k Hg Hc Hk) as Z. rewrite (Jv_entries d y row Sd Hr) in Z by assumption. exact Z.
Qed.
Lemma turned_element : exists t, forall p, In p row -> forall c, (c < 3)%nat -> entries x p c = t c + turn Q (X p) c.
Proof.
  set (o := nth 0 (canonical_nodes (kind d)) []). exists (fun c => interpolated d y row o c). intros p Hp c Hc.
  apply (In_nth row p 0%nat) in Hp. destruct Hp as (a & Ha & <-). rewrite (proj1 (solid_row d row Sd Hr)) in Ha.
  assert (H0 : (0 < n)%nat) by (unfold n; lia).
  pose proof (ref_length d HF 0 H0) as L0. pose proof (ref_length d HF a Ha) as La. cbv beta in L0, La. fold o in L0.
  pose proof (increment d y row HF o (nth a (canonical_nodes (kind d)) []) c L0 La) as I.
  assert (Lm : length (middle o (nth a (canonical_nodes (kind d)) [])) = 3%nat).
  { clear I. set (b := nth a (canonical_nodes (kind d)) []) in *. clearbody o b. destruct (length3 o L0) as (? & ? & ? & ->), (length3 b La) as (? & ? & ? & ->). reflexivity. }
  assert (ZI : interpolated d y row (nth a (canonical_nodes (kind d)) []) c - interpolated d y row o c = 0).
  { rewrite I. assert (Z : forall xi k, length xi = 3%nat -> (k < 3)%nat -> Rsum (map (fun a0 => entries y (nth a0 row 0%nat) c * der (kind d) a0 k xi) (seq 0 (NumberOfNodes (kind d)))) = 0).
    { intros xi k L Hk. pose proof (flat_anywhere xi c k L Hc Hk) as Z. rewrite (Jv_entries d y row Sd Hr) in Z by assumption. exact Z. }
    unfold sum3. cbv beta. rewrite !Z by (assumption || lia). field. }
  pose proof (interpolated_node d y row a c Ha) as N. cbv beta in N. rewrite y_entries in N; [|exact (node_lt d row Sd Hr a Ha)|exact Hc].
  unfold rest_of in N. lra.
Qed.
End Turned.
