(** Lemmas on contains_local with doubles. *)

From Coq Require Import ZArith Reals Lra Lia Psatz List Bool.
From Coq Require Import SpecFloat.
From Flocq Require Import Core.Core IEEE754.BinarySingleNaN.
From Verif Require Import ShapeModel ShapeSpec FpModel FpProofs GridFpProofs ContainsFpModel.
Import ListNotations.
Open Scope R_scope.

Lemma sign_pos : forall x, 0 < val x -> Bsign x = false.
Proof.
  intros [s| | |s m e H] P; unfold val in P; cbn [B2R] in P; try lra. destruct s; [|reflexivity]. exfalso.
  apply (Rlt_irrefl 0). apply Rlt_trans with (1 := P). apply F2R_lt_0. reflexivity.
Qed.
Lemma sign_neg : forall x, val x < 0 -> Bsign x = true.
Proof.
  intros [s| | |s m e H] P; unfold val in P; cbn [B2R] in P; try lra. destruct s; [reflexivity|]. exfalso.
  apply (Rlt_irrefl 0). apply Rlt_trans with (2 := P). apply F2R_gt_0. reflexivity.
Qed.

(** A number of magnitude at least [K] and of sign [s], possibly infinite. *)
Definition beyond (K : R) (s : bool) (z : double) : Prop :=
  z = B754_infinity s \/ (fin z /\ K <= if s then - val z else val z).
Lemma inf_of_SF : forall s (z : double), B2SF z = S754_infinity s -> z = B754_infinity s.
Proof. intros s [ | s'| | ] H; cbn in H; try discriminate H. injection H as ->. reflexivity. Qed.

Lemma rnd_opp : forall x, rnd (- x) = - rnd x.
Proof. intros x. unfold rnd. apply round_NE_opp. Qed.

(** Subtraction of a number of moderate size from one beyond K, and the converse. *)
Lemma beyond_sub : forall K K' (s : bool) x y, generic_format radix2 fexp64 K' -> 0 < K' -> fin y -> (if s then - val y else val y) <= K - K' -> beyond K s x -> 0 < K -> beyond K' s (fsub x y).
Proof.
  intros K K' s x y FK PK Fy By Bx PK0. destruct Bx as [ -> |[Fx Bx]].
  - left. destruct y as [sy| | |sy m e H]; try discriminate Fy; reflexivity.
  - pose proof (Bminus_correct 53 1024 _ _ mode_NE x y Fx Fy) as H. cbn [round_mode] in H. fold fexp64 in H.
    destruct (Rlt_bool _ _) eqn:E.
    + destruct H as (V & F & _). right. split; [exact F|]. change (K' <= (if s then - val (fsub x y) else val (fsub x y))). change (val (fsub x y)) with (B2R (Bminus mode_NE x y)). rewrite V.
      change (B2R x) with (val x). change (B2R y) with (val y). change (round radix2 fexp64 ZnearestE (val x - val y)) with (rnd (val x - val y)).
      destruct s.
      * rewrite <- rnd_opp. rewrite <- (rnd_format K') at 1 by exact FK. apply rnd_le. lra.
      * rewrite <- (rnd_format K') at 1 by exact FK. apply rnd_le. lra.
    + destruct H as (O & _). left. apply inf_of_SF. unfold fsub. rewrite O. cbn. f_equal.
      destruct s; [apply sign_neg|apply sign_pos]; lra.
Qed.
Lemma sub_beyond : forall K K' x y, generic_format radix2 fexp64 K' -> 0 < K' -> fin x -> val x <= K - K' -> beyond K false y -> 0 < K -> beyond K' true (fsub x y).
Proof.
  intros K K' x y FK PK Fx Bx By PK0. destruct By as [ -> |[Fy By]].
  - left. destruct x as [sx| | |sx m e H]; try discriminate Fx; reflexivity.
  - pose proof (Bminus_correct 53 1024 _ _ mode_NE x y Fx Fy) as H. cbn [round_mode] in H. fold fexp64 in H.
    destruct (Rlt_bool _ _) eqn:E.
    + destruct H as (V & F & _). right. split; [exact F|]. change (K' <= - val (fsub x y)). change (val (fsub x y)) with (B2R (Bminus mode_NE x y)). rewrite V.
      change (B2R x) with (val x). change (B2R y) with (val y). change (round radix2 fexp64 ZnearestE (val x - val y)) with (rnd (val x - val y)).
      rewrite <- rnd_opp. rewrite <- (rnd_format K') at 1 by exact FK. apply rnd_le. lra.
    + destruct H as (O & S). left. apply inf_of_SF. unfold fsub. rewrite O. cbn. f_equal.
      rewrite S. rewrite (sign_pos y) by lra. reflexivity.
Qed.

Lemma fle_inf : forall z, fin z -> fle (B754_infinity false) z = false.
Proof. intros [s| | |s m e H] F; try discriminate F; destruct s; reflexivity. Qed.
Lemma zero_val : fin (of_int 0) /\ val (of_int 0) = 0.
Proof. apply (of_int_exact 0). lia. Qed.
Lemma one_val : fin (of_int 1) /\ val (of_int 1) = 1.
Proof. apply (of_int_exact 1). lia. Qed.
Lemma minus_one_val : fin (of_int (-1)) /\ val (of_int (-1)) = -1.
Proof. apply (of_int_exact (-1)). lia. Qed.
Lemma format_1 : generic_format radix2 fexp64 1.
Proof. apply (format_int 1). lia. Qed.

Lemma mul_beyond : forall s a b, beyond 1 s a -> beyond 1 s b -> fle (fmul a b) (of_int 0) = false.
Proof.
  intros s a b A B. destruct zero_val as [F0 V0].
  assert (I : forall t (c : double), beyond 1 t c -> fmul (B754_infinity t) c = B754_infinity false /\ fmul c (B754_infinity t) = B754_infinity false).
  { intros t c [->|[F C]]; [destruct t; split; reflexivity|]. assert (Sc : Bsign c = t) by (destruct t; [apply sign_neg|apply sign_pos]; lra).
    destruct c as [sc| | |sc m e H]; try discriminate F; cbn in Sc; subst; [destruct t; unfold val in C; cbn in C; lra|]. destruct t; split; reflexivity. }
  destruct A as [ -> |[Fa A]]; [rewrite (proj1 (I s b B)); apply fle_inf, F0|]. destruct B as [ -> |[Fb B]]; [rewrite (proj2 (I s a (or_intror (conj Fa A)))); apply fle_inf, F0|].
  pose proof (Bmult_correct 53 1024 _ _ mode_NE a b) as H. cbn [round_mode] in H. fold fexp64 in H. destruct (Rlt_bool _ _) eqn:E.
  - destruct H as (V & F & _). destruct (fle (fmul a b) (of_int 0)) eqn:L; [exfalso|reflexivity].
    assert (Fm : fin (fmul a b)) by (unfold fin, fmul; rewrite F, Fa, Fb; reflexivity).
    apply (fle_spec _ _ Fm F0) in L. rewrite V0 in L. unfold val, fmul in L. rewrite V in L.
    assert (P : 1 <= round radix2 fexp64 ZnearestE (B2R a * B2R b)).
    { change (1 <= rnd (val a * val b)). apply Rle_trans with (rnd 1); [rewrite (rnd_format 1) by apply format_1; lra|]. apply rnd_le. destruct s; nra. }
    lra.
  - assert (Z : fmul a b = B754_infinity false).
    { apply inf_of_SF. unfold fmul. rewrite H. cbn. f_equal. destruct s; [rewrite (sign_neg a), (sign_neg b) by lra|rewrite (sign_pos a), (sign_pos b) by lra]; reflexivity. }
    rewrite Z. apply fle_inf, F0.
Qed.

(** The doubles above a double b >= 1 are at least 2^-52 away. *)
Lemma gap : forall x b, generic_format radix2 fexp64 x -> generic_format radix2 fexp64 b -> 1 <= b -> b < x -> bpow radix2 (-52) <= x - b.
Proof.
  intros x b Fx Fb B L. pose proof (succ_le_lt radix2 fexp64 b x Fb Fx L) as S. rewrite succ_eq_pos in S by lra.
  assert (U : bpow radix2 (-52) <= ulp radix2 fexp64 b).
  { replace (bpow radix2 (-52)) with (ulp radix2 fexp64 1).
    - apply ulp_le; [apply valid64|rewrite fexp64_FLT; apply FLT_exp_monotone|]. rewrite !Rabs_pos_eq by lra. exact B.
    - change 1 with (bpow radix2 0). rewrite ulp_bpow. reflexivity. }
  lra.
Qed.

Definition large : R := bpow radix2 400.
Lemma large_pos : 16 < large. Proof. unfold large. apply Rlt_le_trans with (bpow radix2 5); [cbn; lra|apply bpow_le; lia]. Qed.
Lemma large_twice : large + large <= bpow radix2 401. Proof. unfold large. change 401%Z with (400 + 1)%Z. rewrite bpow_plus. change (bpow radix2 1) with 2. lra. Qed.

Lemma above : forall x b p q : R, generic_format radix2 fexp64 x -> generic_format radix2 fexp64 b -> 1 <= b -> b < x -> p = rnd (x + b) -> q = rnd (x - b) -> 0 < rnd (p * q).
Proof.
  intros x b p q Fx Fb B L -> ->. pose proof (gap x b Fx Fb B L) as G.
  assert (P : 1 <= rnd (x + b)) by (apply Rle_trans with (rnd 1); [rewrite (rnd_format 1) by apply format_1; lra|apply rnd_le; lra]).
  assert (Q : bpow radix2 (-52) <= rnd (x - b)) by (apply Rle_trans with (rnd (bpow radix2 (-52))); [rewrite rnd_format; [lra|apply format_bpow; lia]|apply rnd_le, G]).
  apply Rlt_le_trans with (bpow radix2 (-52)); [apply bpow_gt_0|]. apply Rle_trans with (rnd (bpow radix2 (-52))); [rewrite rnd_format; [lra|apply format_bpow; lia]|].
  apply rnd_le. pose proof (bpow_gt_0 radix2 (-52)). nra.
Qed.

(** The interval test is exact for an interval [-b,b] with 1 <= b <= 2, whatever the double tested. *)
Lemma interval_exact : forall a b x, fin a -> fin b -> val a = - val b -> 1 <= val b <= 2 ->
  (fIN_CLOSED_INTERVAL a x b = true <-> fin x /\ - val b <= val x <= val b).
Proof.
  intros a b x Fa Fb Ab B. pose proof large_pos as LP. destruct zero_val as [F0 V0]. unfold fIN_CLOSED_INTERVAL.
  assert (K : forall s, beyond large s x -> ~ (fin x /\ - val b <= val x <= val b) /\ fle (fmul (fsub x a) (fsub x b)) (of_int 0) = false).
  { intros s H. split.
    - intros [F V]. destruct H as [ -> |[_ H]]; [discriminate F|]. destruct s; lra.
    - apply (mul_beyond s); apply (beyond_sub large 1); try exact H; try assumption; try apply format_1; try lra; destruct s; lra. }
  assert (D : fin x /\ Rabs (val x) < large \/ (exists s, beyond large s x) \/ x = B754_nan).
  { destruct x as [sx|sx| |sx m e He]; [left; split; [reflexivity|unfold val; cbn; rewrite Rabs_R0; lra]|right; left; exists sx; left; reflexivity|right; right; reflexivity|].
    set (x := B754_finite sx m e He). assert (Fx : fin x) by reflexivity. destruct (Rlt_or_le (Rabs (val x)) large) as [L|L]; [left; split; assumption|right; left].
    destruct (Rle_or_lt 0 (val x)) as [P|P]; [exists false|exists true]; right; (split; [exact Fx|]); [rewrite Rabs_pos_eq in L by exact P|rewrite Rabs_left in L by exact P]; exact L. }
  destruct D as [[Fx Lx]|[[s Hs]| -> ]]; [|destruct (K s Hs) as [N E]; rewrite E; split; [intros Q; discriminate Q|intros Q; contradiction (N Q)]|
    split; [intros Q; exfalso; destruct a; discriminate Q|intros [Q _]; discriminate Q]].
  apply Rabs_lt_inv in Lx. pose proof large_twice as LT. assert (BB : bpow radix2 401 <= big) by (apply bpow_le; lia).
  destruct (sub_rnd x a Fx Fa) as [F1 E1]; [apply Rabs_le; lra|]. destruct (sub_rnd x b Fx Fb) as [F2 E2]; [apply Rabs_le; lra|].
  assert (R1 : Rabs (rnd (val x - val a)) <= bpow radix2 401) by (apply abs_round_le_generic; [apply valid64|apply valid_rnd_N|apply format_bpow; lia|apply Rabs_le; lra]).
  assert (R2 : Rabs (rnd (val x - val b)) <= bpow radix2 401) by (apply abs_round_le_generic; [apply valid64|apply valid_rnd_N|apply format_bpow; lia|apply Rabs_le; lra]).
  destruct (mul_rnd (fsub x a) (fsub x b) F1 F2) as [F3 E3].
  { rewrite E1, E2, Rabs_mult. apply Rle_trans with (bpow radix2 401 * bpow radix2 401); [apply Rmult_le_compat; try apply Rabs_pos; assumption|]. rewrite <- bpow_plus. apply bpow_le. lia. }
  rewrite (fle_spec _ _ F3 F0), V0, E3, E1, E2, Ab. replace (val x - - val b) with (val x + val b) by ring. split.
  - intros H. split; [exact Fx|]. split.
    + destruct (Rle_or_lt (- val b) (val x)) as [L|L]; [exact L|exfalso].
      pose proof (above (- val x) (val b) (rnd (- val x + val b)) (rnd (- val x - val b)) (generic_format_opp _ _ _ (format_val x)) (format_val b) (proj1 B)) as A.
      specialize (A ltac:(lra) eq_refl eq_refl). replace (- val x + val b) with (- (val x - val b)) in A by ring. replace (- val x - val b) with (- (val x + val b)) in A by ring.
      rewrite !rnd_opp in A. replace (- rnd (val x - val b) * - rnd (val x + val b)) with (rnd (val x + val b) * rnd (val x - val b)) in A by ring. lra.
    + destruct (Rle_or_lt (val x) (val b)) as [L|L]; [exact L|exfalso].
      pose proof (above (val x) (val b) _ _ (format_val x) (format_val b) (proj1 B) L eq_refl eq_refl). lra.
  - intros [_ [H1 H2]]. apply rnd_le_0. assert (P : 0 <= rnd (val x + val b)) by (apply rnd_ge_0; lra). assert (Q : rnd (val x - val b) <= 0) by (apply rnd_le_0; lra). nra.
Qed.

(** The bounds of the test. *)
Lemma bounds : forall eps, fin eps -> 0 <= val eps <= 1 ->
  fin (fsub (of_int (-1)) eps) /\ fin (fadd (of_int 1) eps) /\ val (fsub (of_int (-1)) eps) = - rnd (1 + val eps) /\ val (fadd (of_int 1) eps) = rnd (1 + val eps) /\ 1 <= rnd (1 + val eps) <= 2 /\
  Rabs (rnd (1 + val eps) - (1 + val eps)) <= 2 * u.
Proof.
  intros eps F B. destruct one_val as [F1 V1]. destruct minus_one_val as [Fm Vm]. assert (BB : 16 <= big) by (apply Rle_trans with (bpow radix2 4); [cbn; lra|apply bpow_le; lia]).
  destruct (sub_rnd (of_int (-1)) eps Fm F) as [A1 A2]; [rewrite Vm; apply Rabs_le; lra|]. destruct (add_rnd (of_int 1) eps F1 F) as [B1 B2]; [rewrite V1; apply Rabs_le; lra|].
  rewrite Vm in A2. rewrite V1 in B2. split; [exact A1|]. split; [exact B1|]. split; [rewrite A2, <- rnd_opp; f_equal; ring|]. split; [exact B2|]. split.
  - split; [apply Rle_trans with (rnd 1); [rewrite (rnd_format 1) by apply format_1; lra|apply rnd_le; lra]|].
    apply Rle_trans with (rnd 2); [apply rnd_le; lra|]. rewrite rnd_format; [lra|]. apply (format_int 2). lia.
  - destruct (rnd_plus_err 1 (val eps) format_1 (format_val eps)) as (e & He & E). rewrite E. replace ((1 + val eps) * (1 + e) - (1 + val eps)) with ((1 + val eps) * e) by ring.
    rewrite Rabs_mult, (Rabs_pos_eq (1 + val eps)) by lra. apply Rmult_le_compat; try apply Rabs_pos; lra.
Qed.

(** Simplices. *)
Lemma flt_neg : forall eps z, fin eps -> flt (fneg eps) z = true -> z = B754_infinity false \/ (fin z /\ - val eps < val z).
Proof.
  intros eps z F H. destruct (fneg_val eps F) as [Fn Vn]. destruct z as [s|s| |s m e He]; [right|left|exfalso|right].
  - split; [reflexivity|]. apply (flt_spec _ _ Fn) in H; [rewrite Vn in H; exact H|reflexivity].
  - destruct s; [|reflexivity]. exfalso. destruct eps as [t| | |t m e He]; try discriminate F; destruct t; discriminate H.
  - destruct eps as [t| | |t m e He]; try discriminate F; discriminate H.
  - split; [reflexivity|]. apply (flt_spec _ _ Fn) in H; [rewrite Vn in H; exact H|reflexivity].
Qed.
Lemma not_beyond : forall K eps z, fin eps -> 0 <= val eps <= 1 -> 1 <= K -> flt (fneg eps) z = true -> beyond K true z -> False.
Proof. intros K eps z F B HK H [->|[_ Q]]; destruct (flt_neg eps _ F H) as [E|[Fz V]]; try discriminate E; try discriminate Fz; [subst z; unfold val in Q; cbn in Q; lra|lra]. Qed.

Lemma step : forall z x, fin z -> fin x -> Rabs (val z - val x) <= 64 -> fin (fsub z x) /\ val (fsub z x) = rnd (val z - val x) /\ Rabs (val (fsub z x) - (val z - val x)) <= u * Rabs (val z - val x).
Proof.
  intros z x Fz Fx H. assert (BB : 64 <= big) by (apply Rle_trans with (bpow radix2 6); [cbn; lra|apply bpow_le; lia]).
  destruct (sub_rnd z x Fz Fx) as [F E]; [lra|]. split; [exact F|]. split; [exact E|]. rewrite E.
  destruct (rnd_plus_err (val z) (- val x) (format_val z) (generic_format_opp _ _ _ (format_val x))) as (d & Hd & D). unfold Rminus at 1 2. fold (val z - val x) in *.
  change (val z + - val x) with (val z - val x) in D. change (val z + - val x) with (val z - val x). rewrite D.
  replace ((val z - val x) * (1 + d) + - (val z - val x)) with (d * (val z - val x)) by ring. rewrite Rabs_mult. apply Rmult_le_compat_r; [apply Rabs_pos|exact Hd].
Qed.
(** One subtraction: either the result is hopelessly negative, or everything is of ordinary size. *)
Lemma format_z : forall z, (Z.abs z <= 2 ^ 53)%Z -> generic_format radix2 fexp64 (IZR z). Proof. exact format_int. Qed.
Lemma step_split : forall eps x, fin eps -> 0 <= val eps <= 1 -> flt (fneg eps) x = true -> beyond 16 false x \/ (fin x /\ - val eps < val x <= 16).
Proof.
  intros eps x F B H. destruct (flt_neg eps x F H) as [ -> |[Fx V]]; [left; left; reflexivity|].
  destruct (Rle_or_lt (val x) 16) as [L|L]; [right; split; [exact Fx|lra]|left; right; split; [exact Fx|lra]].
Qed.
(** [x] is above -1, possibly infinite: subtracting it from a hopelessly negative number leaves one. *)
Lemma beyond_step : forall K eps z x, (Z.abs (K - 1) <= 2 ^ 53)%Z -> (1 < K)%Z -> fin eps -> 0 <= val eps <= 1 -> flt (fneg eps) x = true -> beyond (IZR K) true z -> beyond (IZR (K - 1)) true (fsub z x).
Proof.
  intros K eps z x FK PK F B H Bz. assert (P1 : 0 < IZR (K - 1)) by (apply IZR_lt; lia). assert (P2 : IZR K = IZR (K - 1) + 1) by (rewrite minus_IZR; ring).
  destruct (flt_neg eps x F H) as [ -> |[Fx V]].
  - destruct Bz as [ -> |[Fz _]]; [left; reflexivity|]. left. destruct z as [s| | |s m e He]; try discriminate Fz; reflexivity.
  - apply (beyond_sub (IZR K)); try assumption; [apply format_z, FK|lra|lra].
Qed.

Definition slack : R := / IZR (2 ^ 46).
Lemma u_slack : 128 * u = slack. Proof. unfold slack. rewrite u_val. change (2 ^ 46)%Z with 70368744177664%Z. lra. Qed.

Lemma triangle_sound : forall eps x y, fin eps -> 0 <= val eps <= 1 -> flt (fneg eps) x = true -> flt (fneg eps) y = true -> flt (fneg eps) (fsub (fsub (of_int 1) x) y) = true ->
  fin x /\ fin y /\ - val eps < val x <= 16 /\ - val eps < val y <= 16 /\ - val eps - slack < 1 - val x - val y.
Proof.
  intros eps x y F B Hx Hy H. destruct one_val as [F1 V1]. pose proof u_slack as US. pose proof u_pos as UP. assert (Us : u < / 1000) by (rewrite u_val; lra).
  destruct (step_split eps x F B Hx) as [Bx|[Fx Ix]].
  { exfalso. assert (Q : beyond (IZR 15) true (fsub (of_int 1) x)) by (apply (sub_beyond 16); [apply (format_z 15); lia|lra|exact F1|lra|exact Bx|lra]).
    apply (beyond_step 15 eps _ y) in Q; try assumption; try lia. revert Q. apply (not_beyond _ eps); try assumption. cbn. lra. }
  destruct (step (of_int 1) x F1 Fx) as (Fa & _ & Ea); [rewrite V1; apply Rabs_le; lra|]. rewrite V1 in Ea. set (a := fsub (of_int 1) x) in *.
  assert (Ka : Rabs (1 - val x) <= 15) by (apply Rabs_le; lra). assert (La : Rabs (val a - (1 - val x)) <= 15 * u) by (eapply Rle_trans; [exact Ea|]; nra). apply abs_le in La.
  destruct (step_split eps y F B Hy) as [By|[Fy Iy]].
  { exfalso. assert (Q : beyond (IZR 13) true (fsub a y)) by (apply (sub_beyond 16); [apply (format_z 13); lia|lra|exact Fa|lra|exact By|lra]).
    revert Q. apply (not_beyond _ eps); try assumption. lra. }
  destruct (step a y Fa Fy) as (Fb & _ & Eb); [apply Rabs_le; lra|]. set (b := fsub a y) in *.
  assert (Kb : Rabs (val a - val y) <= 32) by (apply Rabs_le; lra). assert (Lb : Rabs (val b - (val a - val y)) <= 32 * u) by (eapply Rle_trans; [exact Eb|]; nra). apply abs_le in Lb.
  destruct (flt_neg eps b F H) as [E|[_ V]]; [rewrite E in Fb; discriminate Fb|]. repeat split; try assumption; lra.
Qed.

Lemma tetra_sound : forall eps x y w, fin eps -> 0 <= val eps <= 1 -> flt (fneg eps) x = true -> flt (fneg eps) y = true -> flt (fneg eps) w = true -> flt (fneg eps) (fsub (fsub (fsub (of_int 1) x) y) w) = true ->
  fin x /\ fin y /\ fin w /\ - val eps < val x <= 16 /\ - val eps < val y <= 16 /\ - val eps < val w <= 16 /\ - val eps - slack < 1 - val x - val y - val w.
Proof.
  intros eps x y w F B Hx Hy Hw H. destruct one_val as [F1 V1]. pose proof u_slack as US. pose proof u_pos as UP. assert (Us : u < / 1000) by (rewrite u_val; lra).
  destruct (step_split eps x F B Hx) as [Bx|[Fx Ix]].
  { exfalso. assert (Q : beyond (IZR 15) true (fsub (of_int 1) x)) by (apply (sub_beyond 16); [apply (format_z 15); lia|lra|exact F1|lra|exact Bx|lra]).
    apply (beyond_step 15 eps _ y) in Q; try assumption; try lia. apply (beyond_step 14 eps _ w) in Q; try assumption; try lia. revert Q. apply (not_beyond _ eps); try assumption. cbn. lra. }
  destruct (step (of_int 1) x F1 Fx) as (Fa & _ & Ea); [rewrite V1; apply Rabs_le; lra|]. rewrite V1 in Ea. set (a := fsub (of_int 1) x) in *.
  assert (Ka : Rabs (1 - val x) <= 15) by (apply Rabs_le; lra). assert (La : Rabs (val a - (1 - val x)) <= 15 * u) by (eapply Rle_trans; [exact Ea|]; nra). apply abs_le in La.
  destruct (step_split eps y F B Hy) as [By|[Fy Iy]].
  { exfalso. assert (Q : beyond (IZR 13) true (fsub a y)) by (apply (sub_beyond 16); [apply (format_z 13); lia|lra|exact Fa|lra|exact By|lra]).
    apply (beyond_step 13 eps _ w) in Q; try assumption; try lia. revert Q. apply (not_beyond _ eps); try assumption. cbn. lra. }
  destruct (step a y Fa Fy) as (Fb & _ & Eb); [apply Rabs_le; lra|]. set (b := fsub a y) in *.
  assert (Kb : Rabs (val a - val y) <= 32) by (apply Rabs_le; lra). assert (Lb : Rabs (val b - (val a - val y)) <= 32 * u) by (eapply Rle_trans; [exact Eb|]; nra). apply abs_le in Lb.
  destruct (step_split eps w F B Hw) as [Bw|[Fw Iw]].
  { exfalso. assert (Q : beyond (IZR 12) true (fsub b w)) by (apply (sub_beyond 16); [apply (format_z 12); lia|lra|exact Fb|lra|exact Bw|lra]).
    revert Q. apply (not_beyond _ eps); try assumption. lra. }
  destruct (step b w Fb Fw) as (Fc & _ & Ec); [apply Rabs_le; lra|]. set (c := fsub b w) in *.
  assert (Kc : Rabs (val b - val w) <= 49) by (apply Rabs_le; lra). assert (Lc : Rabs (val c - (val b - val w)) <= 49 * u) by (eapply Rle_trans; [exact Ec|]; nra). apply abs_le in Lc.
  destruct (flt_neg eps c F H) as [E|[_ V]]; [rewrite E in Fc; discriminate Fc|]. repeat split; try assumption; lra.
Qed.

Lemma flt_neg_intro : forall eps z, fin eps -> fin z -> - val eps < val z -> flt (fneg eps) z = true.
Proof. intros eps z F Fz H. destruct (fneg_val eps F) as [Fn Vn]. apply (flt_spec _ _ Fn Fz). rewrite Vn. exact H. Qed.

Lemma triangle_complete : forall eps x y, fin eps -> 0 <= val eps <= 1 -> fin x -> fin y -> - val eps < val x -> - val eps < val y -> - val eps + slack <= 1 - val x - val y ->
  flt (fneg eps) (fsub (fsub (of_int 1) x) y) = true.
Proof.
  intros eps x y F B Fx Fy Ix Iy S. destruct one_val as [F1 V1]. pose proof u_slack as US. pose proof u_pos as UP. assert (Us : u < / 1000) by (rewrite u_val; lra).
  destruct (step (of_int 1) x F1 Fx) as (Fa & _ & Ea); [rewrite V1; apply Rabs_le; lra|]. rewrite V1 in Ea. set (a := fsub (of_int 1) x) in *.
  assert (Ka : Rabs (1 - val x) <= 15) by (apply Rabs_le; lra). assert (La : Rabs (val a - (1 - val x)) <= 15 * u) by (eapply Rle_trans; [exact Ea|]; nra). apply abs_le in La.
  destruct (step a y Fa Fy) as (Fb & _ & Eb); [apply Rabs_le; lra|]. set (b := fsub a y) in *.
  assert (Kb : Rabs (val a - val y) <= 32) by (apply Rabs_le; lra). assert (Lb : Rabs (val b - (val a - val y)) <= 32 * u) by (eapply Rle_trans; [exact Eb|]; nra). apply abs_le in Lb.
  apply flt_neg_intro; try assumption. lra.
Qed.
Lemma tetra_complete : forall eps x y w, fin eps -> 0 <= val eps <= 1 -> fin x -> fin y -> fin w -> - val eps < val x -> - val eps < val y -> - val eps < val w -> - val eps + slack <= 1 - val x - val y - val w ->
  flt (fneg eps) (fsub (fsub (fsub (of_int 1) x) y) w) = true.
Proof.
  intros eps x y w F B Fx Fy Fw Ix Iy Iw S. destruct one_val as [F1 V1]. pose proof u_slack as US. pose proof u_pos as UP. assert (Us : u < / 1000) by (rewrite u_val; lra).
  destruct (step (of_int 1) x F1 Fx) as (Fa & _ & Ea); [rewrite V1; apply Rabs_le; lra|]. rewrite V1 in Ea. set (a := fsub (of_int 1) x) in *.
  assert (Ka : Rabs (1 - val x) <= 15) by (apply Rabs_le; lra). assert (La : Rabs (val a - (1 - val x)) <= 15 * u) by (eapply Rle_trans; [exact Ea|]; nra). apply abs_le in La.
  destruct (step a y Fa Fy) as (Fb & _ & Eb); [apply Rabs_le; lra|]. set (b := fsub a y) in *.
  assert (Kb : Rabs (val a - val y) <= 32) by (apply Rabs_le; lra). assert (Lb : Rabs (val b - (val a - val y)) <= 32 * u) by (eapply Rle_trans; [exact Eb|]; nra). apply abs_le in Lb.
  destruct (step b w Fb Fw) as (Fc & _ & Ec); [apply Rabs_le; lra|]. set (c := fsub b w) in *.
  assert (Kc : Rabs (val b - val w) <= 49) by (apply Rabs_le; lra). assert (Lc : Rabs (val c - (val b - val w)) <= 49 * u) by (eapply Rle_trans; [exact Ec|]; nra). apply abs_le in Lc.
  apply flt_neg_intro; try assumption. lra.
Qed.

(** The closed reference elements. *)
Lemma triangle_closed : forall eps x y, fin eps -> 0 < val eps -> fin x -> fin y -> 0 <= val x -> 0 <= val y -> val x + val y <= 1 ->
  flt (fneg eps) (fsub (fsub (of_int 1) x) y) = true.
Proof.
  intros eps x y F B Fx Fy Ix Iy S. destruct one_val as [F1 V1].
  destruct (step (of_int 1) x F1 Fx) as (Fa & Ea & _); [rewrite V1; apply Rabs_le; lra|]. rewrite V1 in Ea. set (a := fsub (of_int 1) x) in *.
  assert (La : val y <= val a) by (rewrite Ea; apply Rle_trans with (rnd (val y)); [rewrite (rnd_format (val y)) by apply format_val; lra|apply rnd_le; lra]).
  assert (Ua : val a <= 1) by (rewrite Ea; apply Rle_trans with (rnd 1); [apply rnd_le; lra|rewrite (rnd_format 1) by apply format_1; lra]).
  destruct (step a y Fa Fy) as (Fb & Eb & _); [apply Rabs_le; lra|]. apply flt_neg_intro; try assumption. rewrite Eb. assert (0 <= rnd (val a - val y)) by (apply rnd_ge_0; lra). lra.
Qed.
Lemma tetra_closed : forall eps x y w, fin eps -> bpow radix2 (-52) < val eps -> fin x -> fin y -> fin w -> 0 <= val x -> 0 <= val y -> 0 <= val w -> val x + val y + val w <= 1 ->
  flt (fneg eps) (fsub (fsub (fsub (of_int 1) x) y) w) = true.
Proof.
  intros eps x y w F B Fx Fy Fw Ix Iy Iw S. destruct one_val as [F1 V1]. pose proof u_pos as UP.
  destruct (step (of_int 1) x F1 Fx) as (Fa & Ea & Da); [rewrite V1; apply Rabs_le; lra|]. rewrite V1 in Ea, Da. set (a := fsub (of_int 1) x) in *.
  assert (La : Rabs (val a - (1 - val x)) <= u) by (eapply Rle_trans; [exact Da|]; rewrite Rabs_pos_eq by lra; nra). apply abs_le in La.
  assert (Ua : val y <= val a <= 1).
  { rewrite Ea. split; [apply Rle_trans with (rnd (val y)); [rewrite (rnd_format (val y)) by apply format_val; lra|apply rnd_le; lra]|].
    apply Rle_trans with (rnd 1); [apply rnd_le; lra|rewrite (rnd_format 1) by apply format_1; lra]. }
  destruct (step a y Fa Fy) as (Fb & _ & Db); [apply Rabs_le; lra|]. set (b := fsub a y) in *.
  assert (Lb : Rabs (val b - (val a - val y)) <= u) by (eapply Rle_trans; [exact Db|]; rewrite Rabs_pos_eq by lra; nra). apply abs_le in Lb.
  assert (U2 : bpow radix2 (-52) = 2 * u) by (unfold u; change (-52)%Z with (1 + -53)%Z; rewrite bpow_plus; change (bpow radix2 1) with 2; ring).
  assert (Us : u < / 1000) by (rewrite u_val; lra).
  destruct (step b w Fb Fw) as (Fc & Ec & _); [apply Rabs_le; lra|]. apply flt_neg_intro; try assumption. rewrite Ec.
  assert (- bpow radix2 (-52) <= rnd (val b - val w)); [|lra]. apply Rle_trans with (rnd (- bpow radix2 (-52))); [rewrite rnd_opp, rnd_format; [lra|apply format_bpow; lia]|apply rnd_le; lra].
Qed.
