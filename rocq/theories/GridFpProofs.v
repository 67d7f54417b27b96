(** Lemmas on the grid location queries with doubles. *)

From Coq Require Import ZArith Reals Lra Lia Psatz List Bool.
From Flocq Require Import Core.Core IEEE754.BinarySingleNaN.
From Verif Require Import GridModel GridGeoModel GridGeoSpec FpModel FpProofs GridFpModel.
Import ListNotations.
Open Scope R_scope.

Definition real_axis (a : faxis) : axis := Axis (val (fa_anchor a)) (fa_n a) (val (fa_size a)).
(** An axis whose numbers are far from the limits of the doubles. *)
Definition ordinary (a : faxis) : Prop :=
  fin (fa_anchor a) /\ fin (fa_size a) /\ (0 < fa_n a <= 2 ^ 48)%Z /\ Rabs (val (fa_anchor a)) <= bpow radix2 300 /\ bpow radix2 (-300) <= val (fa_size a) <= bpow radix2 300.

Lemma abs_le : forall x b, Rabs x <= b -> - b <= x <= b.
Proof. intros x b H. apply Rabs_le_inv, H. Qed.
Lemma bpow53 : bpow radix2 53 = 9007199254740992. Proof. cbn. lra. Qed.
Lemma u_val : u = / 9007199254740992. Proof. unfold u. change (-53)%Z with (- (53))%Z. rewrite bpow_opp, bpow53. reflexivity. Qed.
Lemma tiny_u : tiny <= u * u. Proof. unfold tiny, u. rewrite <- bpow_plus. apply bpow_le. lia. Qed.
Lemma big_val : forall x, x <= bpow radix2 999 -> x <= big.
Proof. intros x H. apply Rle_trans with (1 := H). apply bpow_le. lia. Qed.

Lemma ratio : forall e1 e2 e3, Rabs e1 <= u -> Rabs e2 <= u -> Rabs e3 <= u -> Rabs ((1 + e2) * (1 + e3) / (1 + e1) - 1) <= 4 * u.
Proof.
  intros e1 e2 e3 H1 H2 H3. apply abs_le in H1, H2, H3. pose proof u_pos as P. assert (U : u <= / 100) by (rewrite u_val; lra). revert H1 H2 H3 P U. generalize u. intros v H1 H2 H3 P U.
  assert (D : 0 < 1 + e1) by lra.
  assert (A : (1 - v) * (1 - v) <= (1 + e2) * (1 + e3) <= (1 + v) * (1 + v)) by (split; nra).
  replace ((1 + e2) * (1 + e3) / (1 + e1) - 1) with (((1 + e2) * (1 + e3) - (1 + e1)) / (1 + e1)) by (field; lra).
  apply Rabs_le. split; apply Rmult_le_reg_r with (1 + e1); try exact D; unfold Rdiv; rewrite Rmult_assoc, Rinv_l, Rmult_1_r by lra; nra.
Qed.

Lemma n_real : forall a, ordinary a -> 1 <= IZR (fa_n a) <= bpow radix2 48.
Proof.
  intros a (_ & _ & N & _). split; [apply IZR_le; lia|]. change (bpow radix2 48) with (IZR (2 ^ 48)). apply IZR_le. lia.
Qed.
Lemma cell_size_range : forall a, ordinary a -> bpow radix2 (-348) <= val (fa_size a) / IZR (fa_n a) <= bpow radix2 300.
Proof.
  intros a O. pose proof (n_real a O) as N. destruct O as (_ & _ & _ & _ & S). pose proof (bpow_gt_0 radix2 (-300)). split.
  - apply Rmult_le_reg_r with (IZR (fa_n a)); [lra|]. unfold Rdiv. rewrite Rmult_assoc, Rinv_l, Rmult_1_r by lra.
    apply Rle_trans with (bpow radix2 (-348) * bpow radix2 48); [apply Rmult_le_compat_l; [apply bpow_ge_0|lra]|]. rewrite <- bpow_plus. exact (proj1 S).
  - apply Rmult_le_reg_r with (IZR (fa_n a)); [lra|]. unfold Rdiv. rewrite Rmult_assoc, Rinv_l, Rmult_1_r by lra. nra.
Qed.
Lemma H_err : forall a, ordinary a -> fin (fa_H a) /\ exists e, Rabs e <= u /\ val (fa_H a) = val (fa_size a) / IZR (fa_n a) * (1 + e).
Proof.
  intros a O. pose proof (cell_size_range a O) as C. pose proof (n_real a O) as N. destruct O as (_ & Fs & Nz & _ & _).
  destruct (of_int_exact (fa_n a)) as [Fn En]; [lia|]. pose proof (bpow_gt_0 radix2 (-348)).
  destruct (div_err (fa_size a) (of_int (fa_n a)) Fs) as (F & e & t & He & _ & E & T); rewrite ?En in *.
  - lra.
  - rewrite Rabs_pos_eq by lra. apply Rle_trans with (1 := proj2 C). apply bpow_le. lia.
  - split; [exact F|]. exists e. split; [exact He|]. unfold fa_H. rewrite E, T; [lra|]. rewrite Rabs_pos_eq by lra. apply Rle_trans with (2 := proj1 C). apply bpow_le. lia.
Qed.

(** The exact position of a point along an axis, in cells. *)
Definition exact (a : faxis) (x : R) : R := (x - val (fa_anchor a)) / (val (fa_size a) / IZR (fa_n a)).
Lemma exact_plane : forall a x i, ordinary a -> (plane (real_axis a) i <= x <-> IZR i <= exact a x) /\ (x <= plane (real_axis a) i <-> exact a x <= IZR i).
Proof.
  intros a x i O. pose proof (cell_size_range a O) as C. pose proof (bpow_gt_0 radix2 (-348)). pose proof (n_real a O) as N.
  assert (E : plane (real_axis a) i = val (fa_anchor a) + IZR i * (val (fa_size a) / IZR (fa_n a))) by (unfold plane, real_axis; cbn; field; lra).
  assert (X : x = val (fa_anchor a) + exact a x * (val (fa_size a) / IZR (fa_n a))).
  { unfold exact. set (h := val (fa_size a) / IZR (fa_n a)) in *. field. lra. }
  rewrite E. set (h := val (fa_size a) / IZR (fa_n a)) in *. set (c := exact a x) in *. rewrite X. split; split; intros K; nra.
Qed.

(** Relative error of the computed position. *)
Lemma absolute_err_gen : forall a x, ordinary a -> fin x -> Rabs (val x - val (fa_anchor a)) <= 2 * val (fa_size a) ->
  fin (fa_absolute a x) /\ exists f t, Rabs f <= 4 * u /\ Rabs t <= tiny /\ val (fa_absolute a x) = exact a (val x) * (1 + f) + t.
Proof.
  intros a x O Fx B. pose proof (cell_size_range a O) as C. pose proof (bpow_gt_0 radix2 (-348)). pose proof (n_real a O) as N. destruct (H_err a O) as (FH & e1 & H1 & EH).
  destruct O as (Fa & Fs & Nz & _ & S). set (h := val (fa_size a) / IZR (fa_n a)) in *.
  assert (S3 : 2 * val (fa_size a) <= bpow radix2 301) by (change 301%Z with (1 + 300)%Z; rewrite bpow_plus; change (bpow radix2 1) with 2; lra).
  destruct (sub_err x (fa_anchor a) Fx Fa) as (Fd & e2 & H2 & Ed).
  { apply Rle_trans with (1 := B). apply Rle_trans with (1 := S3). apply bpow_le. lia. }
  pose proof u_pos as P. assert (U : u <= / 100) by (rewrite u_val; lra).
  pose proof (abs_le _ _ H1) as A1. pose proof (abs_le _ _ H2) as A2.
  assert (Q : val (fsub x (fa_anchor a)) / val (fa_H a) = exact a (val x) * ((1 + e2) / (1 + e1))).
  { rewrite EH, Ed. unfold exact. fold h. field. split; lra. }
  assert (Hs : val (fa_size a) = h * IZR (fa_n a)) by (unfold h; field; lra).
  assert (Ec : Rabs (exact a (val x)) <= 2 * IZR (fa_n a)).
  { unfold exact. fold h. unfold Rdiv. rewrite Rabs_mult, Rabs_inv, (Rabs_pos_eq h) by lra. apply Rmult_le_reg_r with h; [lra|]. rewrite Rmult_assoc, Rinv_l, Rmult_1_r by lra.
    apply Rle_trans with (1 := B). rewrite Hs. lra. }
  assert (Er : Rabs ((1 + e2) / (1 + e1)) <= 2).
  { rewrite Rabs_pos_eq by (apply Rlt_le, Rdiv_lt_0_compat; lra). apply Rmult_le_reg_r with (1 + e1); [lra|]. unfold Rdiv. rewrite Rmult_assoc, Rinv_l by lra. lra. }
  destruct (div_err (fsub x (fa_anchor a)) (fa_H a) Fd) as (F & e3 & t & H3 & Ht & E & _).
  - rewrite EH. apply Rgt_not_eq. apply Rmult_lt_0_compat; lra.
  - rewrite Q, Rabs_mult. apply Rle_trans with (2 * IZR (fa_n a) * 2); [apply Rmult_le_compat; auto using Rabs_pos|].
    apply Rle_trans with (bpow radix2 48 * 4); [lra|]. change 4 with (bpow radix2 2). rewrite <- bpow_plus. apply bpow_le. lia.
  - split; [exact F|]. exists ((1 + e2) * (1 + e3) / (1 + e1) - 1), t. split; [apply ratio; assumption|]. split; [exact Ht|].
    unfold fa_absolute. rewrite E, Q. field. lra.
Qed.
Lemma absolute_err : forall a x, ordinary a -> fin x -> val (fa_anchor a) <= val x <= val (fa_anchor a) + val (fa_size a) ->
  fin (fa_absolute a x) /\ exists f t, Rabs f <= 4 * u /\ Rabs t <= tiny /\ val (fa_absolute a x) = exact a (val x) * (1 + f) + t.
Proof.
  intros a x O Fx B. apply absolute_err_gen; [exact O|exact Fx|]. destruct O as (_ & _ & _ & _ & S). pose proof (bpow_gt_0 radix2 (-300)). rewrite Rabs_pos_eq; lra.
Qed.
Lemma exact_range : forall a x, ordinary a -> val (fa_anchor a) <= x <= val (fa_anchor a) + val (fa_size a) -> 0 <= exact a x <= IZR (fa_n a).
Proof.
  intros a x O B. pose proof (n_real a O) as N. pose proof (cell_size_range a O) as C. pose proof (bpow_gt_0 radix2 (-348)). unfold exact. set (h := val (fa_size a) / IZR (fa_n a)) in *.
  assert (Hs : val (fa_size a) = h * IZR (fa_n a)) by (unfold h; field; lra).
  split; apply Rmult_le_reg_r with h; try lra; unfold Rdiv; rewrite ?Rmult_assoc, ?Rinv_l, ?Rmult_1_r, ?Rmult_0_l by lra; lra.
Qed.
Lemma absolute_ge_0 : forall a x, ordinary a -> fin x -> val (fa_anchor a) <= val x <= val (fa_anchor a) + val (fa_size a) -> 0 <= val (fa_absolute a x).
Proof.
  intros a x O Fx B. destruct (H_err a O) as (FH & e1 & H1 & EH). pose proof (cell_size_range a O) as C. pose proof (bpow_gt_0 radix2 (-348)) as Z.
  destruct O as (Fa & _ & Nz & _ & S). pose proof u_pos as P. assert (U : u <= / 100) by (rewrite u_val; lra). pose proof (abs_le _ _ H1) as A1.
  destruct (sub_rnd x (fa_anchor a) Fx Fa) as (Fd & Ed).
  { rewrite Rabs_pos_eq by lra. apply Rle_trans with (bpow radix2 300); [lra|]. apply bpow_le. lia. }
  assert (HH : 0 < val (fa_H a)) by (rewrite EH; apply Rmult_lt_0_compat; lra).
  assert (D0 : 0 <= val (fsub x (fa_anchor a))) by (rewrite Ed; apply rnd_ge_0; lra).
  unfold fa_absolute. pose proof (Bdiv_correct 53 1024 _ _ mode_NE (fsub x (fa_anchor a)) (fa_H a)) as K. cbn [round_mode] in K. specialize (K (Rgt_not_eq _ _ HH)).
  destruct (Rlt_bool_spec (Rabs (round radix2 fexp64 ZnearestE (B2R (fsub x (fa_anchor a)) / B2R (fa_H a)))) (bpow radix2 1024)) as [_|_].
  - destruct K as (K & _). unfold val, fdiv. rewrite K. apply rnd_ge_0. apply Rmult_le_pos; [exact D0|]. apply Rlt_le, Rinv_0_lt_compat, HH.
  - unfold val, fdiv. destruct (Bdiv mode_NE (fsub x (fa_anchor a)) (fa_H a)) as [s|s| |s m e p]; cbn in *; try lra. discriminate K.
Qed.

Lemma u8 : 8 * u = bpow radix2 (-50).
Proof. unfold u. change 8 with (bpow radix2 3). rewrite <- bpow_plus. reflexivity. Qed.
Lemma trunc_sound : forall c q f t, 0 <= c -> 0 <= q -> Rabs f <= 4 * u -> Rabs t <= tiny -> q = c * (1 + f) + t ->
  let j := Ztrunc q in (0 <= j)%Z /\ IZR j * (1 - 8 * u) <= c <= IZR (j + 1) * (1 + 8 * u) /\ IZR j <= q < IZR j + 1.
Proof.
  intros c q f t Hc Hq Hf Ht E j. assert (Ej : j = Zfloor q) by (apply Ztrunc_floor; exact Hq).
  pose proof (Zfloor_lb q) as L. pose proof (Zfloor_ub q) as R0. rewrite <- Ej in L, R0.
  assert (J : (0 <= j)%Z) by (rewrite Ej; apply Zfloor_lub; exact Hq). split; [exact J|]. split; [|lra]. apply IZR_le in J. rewrite plus_IZR.
  apply abs_le in Hf, Ht. pose proof tiny_u as T. pose proof u_pos as P. assert (U : u <= / 100) by (rewrite u_val; lra).
  revert Hf Ht T P U. generalize u tiny. intros v s Hf Ht T P U.
  assert (A : c * (1 - 4 * v) <= c * (1 + f) <= c * (1 + 4 * v)) by (split; apply Rmult_le_compat_l; lra).
  assert (V2 : v * v <= v * / 100) by (apply Rmult_le_compat_l; lra).
  split.
  - destruct (Z.eq_dec j 0) as [Z|Z]; [rewrite Z; lra|].
    assert (J1 : 1 <= IZR j) by (apply IZR_le; assert (0 <= j)%Z by (apply le_IZR; exact J); lia).
    apply Rnot_lt_le. intros K. apply Rmult_lt_compat_r with (r := 1 + 4 * v) in K; [|lra].
    assert (M : IZR j * (1 - 8 * v) * (1 + 4 * v) = IZR j - 4 * (v * IZR j) - 32 * (v * v * IZR j)) by ring.
    assert (M1 : v * 1 <= v * IZR j) by (apply Rmult_le_compat_l; lra).
    assert (M2 : 0 <= v * v * IZR j) by (apply Rmult_le_pos; [nra|lra]). lra.
  - apply Rnot_lt_le. intros K. apply Rmult_lt_compat_r with (r := 1 - 4 * v) in K; [|lra].
    assert (M : (IZR j + 1) * (1 + 8 * v) * (1 - 4 * v) = (IZR j + 1) + 4 * (v * (IZR j + 1)) - 32 * (v * (v * (IZR j + 1)))) by ring.
    assert (M1 : v * 1 <= v * (IZR j + 1)) by (apply Rmult_le_compat_l; lra).
    assert (M2 : v * (v * (IZR j + 1)) <= / 100 * (v * (IZR j + 1))) by (apply Rmult_le_compat_r; lra). lra.
Qed.

(** The closed cell [i] of an axis, with a slack of 2^-50 of the distance to the anchor on each side. *)
Definition near_cell (a : faxis) (i : Z) (x : double) : Prop :=
  let h := val (fa_size a) / IZR (fa_n a) in
  plane (real_axis a) i - IZR i * bpow radix2 (-50) * h <= val x <= plane (real_axis a) (i + 1) + IZR (i + 1) * bpow radix2 (-50) * h.
Lemma near_exact : forall a i x, ordinary a -> (near_cell a i x <-> IZR i * (1 - 8 * u) <= exact a (val x) <= IZR (i + 1) * (1 + 8 * u)).
Proof.
  intros a i x O. pose proof (cell_size_range a O) as C. pose proof (bpow_gt_0 radix2 (-348)). pose proof (n_real a O) as N. unfold near_cell. rewrite <- u8.
  assert (E : forall i, plane (real_axis a) i = val (fa_anchor a) + IZR i * (val (fa_size a) / IZR (fa_n a))) by (intros k; unfold plane, real_axis; cbn; field; lra).
  assert (X : val x = val (fa_anchor a) + exact a (val x) * (val (fa_size a) / IZR (fa_n a))).
  { unfold exact. set (h := val (fa_size a) / IZR (fa_n a)) in *. field. lra. }
  rewrite !E. cbv zeta. set (h := val (fa_size a) / IZR (fa_n a)) in *. set (c := exact a (val x)) in *. rewrite X. generalize (IZR i) (IZR (i + 1)) u. intros p q v.
  split; intros [K1 K2]; split; nra.
Qed.
Lemma cell_coordinate_sound : forall a x, ordinary a -> fin x -> val (fa_anchor a) <= val x <= val (fa_anchor a) + val (fa_size a) ->
  exists j, fa_cell_coordinate a x = Some j /\ (0 <= j <= fa_n a)%Z /\ near_cell a j x /\ IZR j <= val (fa_absolute a x) < IZR j + 1.
Proof.
  intros a x O Fx B. destruct (absolute_err a x O Fx B) as (F & f & t & Hf & Ht & E). pose proof (exact_range a (val x) O B) as C. pose proof (absolute_ge_0 a x O Fx B) as Q.
  destruct (trunc_sound _ _ f t (proj1 C) Q Hf Ht E) as (J & S & T). set (j := Ztrunc (val (fa_absolute a x))) in *. pose proof (n_real a O) as N.
  assert (J2 : (j <= fa_n a)%Z).
  { apply Z.lt_succ_r. apply lt_IZR. rewrite succ_IZR. apply Rle_lt_trans with (1 := proj1 T). rewrite E. apply abs_le in Hf, Ht. pose proof tiny_u as T'. rewrite u_val in *.
    change (bpow radix2 48) with 281474976710656 in N. nra. }
  exists j. split; [|split; [lia|split; [apply near_exact; assumption|exact T]]]. unfold fa_cell_coordinate. apply to_int_spec; [exact F|]. fold j. destruct O as (_ & _ & Nz & _). lia.
Qed.

(** The computed positions are in the order of the points. *)
Lemma absolute_monotone : forall a x y, ordinary a -> fin x -> fin y -> val x <= val y ->
  Rabs (val x - val (fa_anchor a)) <= 2 * val (fa_size a) -> Rabs (val y - val (fa_anchor a)) <= 2 * val (fa_size a) ->
  val (fa_absolute a x) <= val (fa_absolute a y).
Proof.
  intros a x y O Fx Fy L Bx By. destruct (H_err a O) as (FH & e1 & H1 & EH). pose proof (cell_size_range a O) as C. pose proof (bpow_gt_0 radix2 (-348)) as Z.
  pose proof (n_real a O) as N.
  assert (G : forall z, fin z -> Rabs (val z - val (fa_anchor a)) <= 2 * val (fa_size a) -> val (fa_absolute a z) = rnd (rnd (val z - val (fa_anchor a)) / val (fa_H a))).
  { intros z Fz Bz. destruct O as (Fa & Fs & Nz & _ & S).
    assert (S3 : 2 * val (fa_size a) <= bpow radix2 301) by (change 301%Z with (1 + 300)%Z; rewrite bpow_plus; change (bpow radix2 1) with 2; lra).
    destruct (sub_rnd z (fa_anchor a) Fz Fa) as (Fd & Ed). { apply Rle_trans with (1 := Bz). apply Rle_trans with (1 := S3). apply bpow_le. lia. }
    destruct (sub_err z (fa_anchor a) Fz Fa) as (_ & e2 & H2 & Ed2). { apply Rle_trans with (1 := Bz). apply Rle_trans with (1 := S3). apply bpow_le. lia. }
    pose proof u_pos as P. assert (U : u <= / 100) by (rewrite u_val; lra). pose proof (abs_le _ _ H1) as A1. pose proof (abs_le _ _ H2) as A2.
    destruct (div_rnd (fsub z (fa_anchor a)) (fa_H a) Fd) as (F & E).
    - rewrite EH. apply Rgt_not_eq, Rmult_lt_0_compat; lra.
    - set (h := val (fa_size a) / IZR (fa_n a)) in *. assert (Hs : val (fa_size a) = h * IZR (fa_n a)) by (unfold h; field; lra).
      rewrite EH, Ed2. replace ((val z - val (fa_anchor a)) * (1 + e2) / (h * (1 + e1))) with ((val z - val (fa_anchor a)) * / h * ((1 + e2) * / (1 + e1))) by (field; split; lra).
      rewrite !Rabs_mult. apply Rle_trans with (2 * IZR (fa_n a) * 2); [|apply Rle_trans with (bpow radix2 48 * 4); [lra|]; change 4 with (bpow radix2 2); rewrite <- bpow_plus; apply bpow_le; lia].
      apply Rmult_le_compat; [apply Rmult_le_pos; apply Rabs_pos|apply Rmult_le_pos; apply Rabs_pos| |].
      + rewrite Rabs_inv, (Rabs_pos_eq h) by lra. apply Rmult_le_reg_r with h; [lra|]. rewrite Rmult_assoc, Rinv_l, Rmult_1_r by lra. apply Rle_trans with (1 := Bz). rewrite Hs. lra.
      + rewrite Rabs_inv, !Rabs_pos_eq by lra. apply Rmult_le_reg_r with (1 + e1); [lra|]. rewrite Rmult_assoc, Rinv_l by lra. lra.
    - unfold fa_absolute. rewrite E, Ed. reflexivity. }
  rewrite (G x Fx Bx), (G y Fy By). apply rnd_le. unfold Rdiv. apply Rmult_le_compat_r.
  - pose proof u_pos as P. assert (U : u <= / 100) by (rewrite u_val; lra). pose proof (abs_le _ _ H1) as A1. apply Rlt_le, Rinv_0_lt_compat. rewrite EH. apply Rmult_lt_0_compat; lra.
  - apply rnd_le. lra.
Qed.

(** The test of the closed interval [-eps, eps]. *)
Lemma interval_spec : forall t eps, fin t -> fin eps -> bpow radix2 (-400) <= val eps <= bpow radix2 301 -> Rabs (val t) <= bpow radix2 302 ->
  let b := fle (fmul (fsub t (fneg eps)) (fsub t eps)) (of_int 0) in
  (b = true -> Rabs (val t) <= 2 * val eps) /\ (b = false -> val eps / 2 <= Rabs (val t)).
Proof.
  intros t eps Ft Fe Be Bt. destruct (fneg_val eps Fe) as [Fn En]. pose proof (bpow_gt_0 radix2 (-400)) as Z.
  assert (B3 : bpow radix2 301 + bpow radix2 302 <= bpow radix2 303).
  { change (bpow radix2 302) with (bpow radix2 (1 + 301)). change (bpow radix2 303) with (bpow radix2 (2 + 301)). rewrite !bpow_plus. change (bpow radix2 1) with 2. change (bpow radix2 2) with 4. pose proof (bpow_gt_0 radix2 301). lra. }
  assert (BB : bpow radix2 303 <= big) by (apply bpow_le; lia). pose proof (abs_le _ _ Bt) as At.
  destruct (sub_err t (fneg eps) Ft Fn) as (F1 & e1 & H1 & E1); [rewrite En; apply Rabs_le; lra|].
  destruct (sub_err t eps Ft Fe) as (F2 & e2 & H2 & E2); [apply Rabs_le; lra|].
  rewrite En in E1. replace (val t - - val eps) with (val t + val eps) in E1 by ring.
  pose proof u_pos as P. assert (U : u <= / 100) by (rewrite u_val; lra). pose proof (abs_le _ _ H1) as A1. pose proof (abs_le _ _ H2) as A2.
  set (x := fsub t (fneg eps)) in *. set (y := fsub t eps) in *.
  assert (M : forall w e, - u <= e <= u -> Rabs w <= bpow radix2 303 -> Rabs (w * (1 + e)) <= bpow radix2 304).
  { intros w e He Hw. rewrite Rabs_mult, (Rabs_pos_eq (1 + e)) by lra. change (bpow radix2 304) with (bpow radix2 (303 + 1)). rewrite bpow_plus. change (bpow radix2 1) with 2.
    apply Rmult_le_compat; [apply Rabs_pos|lra|exact Hw|lra]. }
  assert (Mx : Rabs (val x) <= bpow radix2 304) by (rewrite E1; apply M; [exact A1|apply Rabs_le; lra]).
  assert (My : Rabs (val y) <= bpow radix2 304) by (rewrite E2; apply M; [exact A2|apply Rabs_le; lra]).
  assert (Mxy : Rabs (val x * val y) <= big).
  { rewrite Rabs_mult. apply Rle_trans with (bpow radix2 304 * bpow radix2 304); [apply Rmult_le_compat; auto using Rabs_pos|]. rewrite <- bpow_plus. apply bpow_le. lia. }
  destruct (mul_rnd x y F1 F2 Mxy) as (F & E). destruct (mul_err x y F1 F2 Mxy) as (_ & e3 & s & H3 & _ & E3 & T3). pose proof (abs_le _ _ H3) as A3.
  destruct (of_int_exact 0) as [F0 E0]; [lia|]. pose proof (fle_spec _ _ F F0) as LE. rewrite E0 in LE. cbv zeta. split.
  - intros b. apply LE in b. apply Rnot_lt_le. intros K.
    assert (G : val eps * val eps <= val x * val y).
    { destruct (Rle_or_lt 0 (val t)) as [Pt|Pt].
      - rewrite Rabs_pos_eq in K by exact Pt. assert (X1 : 2 * val eps <= val x) by (rewrite E1; nra). assert (Y1 : val eps / 2 <= val y) by (rewrite E2; nra). nra.
      - rewrite Rabs_left in K by exact Pt. assert (X1 : val x <= - (val eps / 2)) by (rewrite E1; nra). assert (Y1 : val y <= - (2 * val eps)) by (rewrite E2; nra). nra. }
    assert (EE : bpow radix2 (-800) <= val eps * val eps) by (change (-800)%Z with (-400 + -400)%Z; rewrite bpow_plus; apply Rmult_le_compat; lra).
    pose proof (bpow_gt_0 radix2 (-800)). rewrite T3 in E3.
    + rewrite E3 in b. assert (0 < val x * val y * (1 + e3)) by (apply Rmult_lt_0_compat; lra). lra.
    + rewrite Rabs_pos_eq by lra. apply Rle_trans with (bpow radix2 (-800)); [apply bpow_le; lia|lra].
  - intros b. apply Rnot_lt_le. intros K. assert (G : val x * val y <= 0).
    { apply Rabs_def2 in K. assert (0 <= val x) by (rewrite E1; nra). assert (val y <= 0) by (rewrite E2; nra). nra. }
    assert (C : fle (fmul x y) (of_int 0) = true) by (apply LE; rewrite E; apply rnd_le_0, G). congruence.
Qed.

Lemma two_err : forall s e1 e4, 0 <= s -> - u <= e1 <= u -> - u <= e4 <= u -> s - 3 * u * s <= s * (1 + e1) * (1 + e4) <= s + 3 * u * s.
Proof.
  intros s e1 e4 S A1 A4. pose proof u_pos as P. assert (U : u <= / 100) by (rewrite u_val; lra).
  assert (B : 1 - 3 * u <= (1 + e1) * (1 + e4) <= 1 + 3 * u) by (revert A1 A4 P U; generalize u; intros v A1 A4 P U; split; nra).
  replace (s * (1 + e1) * (1 + e4)) with (s * ((1 + e1) * (1 + e4))) by ring. split.
  - apply Rle_trans with (s * (1 - 3 * u)); [lra|]. apply Rmult_le_compat_l; lra.
  - apply Rle_trans with (s * (1 + 3 * u)); [|lra]. apply Rmult_le_compat_l; lra.
Qed.

(** The grid is not further from the origin than 2^28 cells. *)
Definition well_placed (a : faxis) : Prop := IZR (fa_n a) * (Rabs (val (fa_anchor a)) + val (fa_size a)) <= bpow radix2 28 * val (fa_size a).

Lemma err_add : forall w e M, Rabs w <= M -> Rabs e <= u -> w - M * u <= w * (1 + e) <= w + M * u.
Proof.
  intros w e M W E. assert (Q : Rabs (w * e) <= M * u) by (rewrite Rabs_mult; apply Rmult_le_compat; auto using Rabs_pos). apply abs_le in Q. lra.
Qed.
Lemma err_pos : forall w e, 0 <= w -> Rabs e <= u -> w - w * u <= w * (1 + e) <= w + w * u.
Proof. intros w e W E. apply err_add; [rewrite Rabs_pos_eq; lra|exact E]. Qed.
(** Division of H by a small integer. *)
Lemma H_div : forall a k, ordinary a -> (1 <= k <= 1000000)%Z ->
  fin (fdiv (fa_H a) (of_int k)) /\ exists e, Rabs e <= u /\ val (fdiv (fa_H a) (of_int k)) = val (fa_H a) / IZR k * (1 + e).
Proof.
  intros a k O Hk. destruct (H_err a O) as (FH & e1 & H1 & EH). pose proof (cell_size_range a O) as C. set (h := val (fa_size a) / IZR (fa_n a)) in *.
  destruct (of_int_exact k) as [Fk Ek]; [lia|]. assert (Kr : 1 <= IZR k <= 1000000) by (split; apply IZR_le; lia). pose proof (bpow_gt_0 radix2 (-348)) as Z.
  pose proof (err_pos h e1 ltac:(lra) H1) as Hh. rewrite <- EH, u_val in Hh.
  assert (R1 : bpow radix2 (-400) <= val (fa_H a) / IZR k <= bpow radix2 301).
  { assert (I : / 1000000 <= / IZR k <= 1) by (split; [apply Rinv_le; lra|rewrite <- Rinv_1; apply Rinv_le; lra]).
    assert (B1 : bpow radix2 (-400) <= / 2000000 * bpow radix2 (-348)).
    { apply Rle_trans with (bpow radix2 (-21) * bpow radix2 (-348)); [rewrite <- bpow_plus; apply bpow_le; lia|]. apply Rmult_le_compat_r; [apply bpow_ge_0|]. change (bpow radix2 (-21)) with (/ 2097152). lra. }
    assert (B2 : bpow radix2 300 * 2 = bpow radix2 301) by (change (bpow radix2 301) with (bpow radix2 (300 + 1)); rewrite bpow_plus; reflexivity).
    unfold Rdiv. split.
    - apply Rle_trans with (/ 2 * h * / 1000000); [lra|]. apply Rmult_le_compat; lra.
    - apply Rle_trans with (2 * h * 1); [apply Rmult_le_compat; lra|lra]. }
  pose proof (bpow_gt_0 radix2 (-400)).
  destruct (div_err (fa_H a) (of_int k) FH) as (F & e & t & He & _ & E & T); rewrite ?Ek in *; [lra|rewrite Rabs_pos_eq by lra; apply Rle_trans with (1 := proj2 R1); apply bpow_le; lia|].
  split; [exact F|]. exists e. split; [exact He|]. rewrite E, T; [lra|]. rewrite Rabs_pos_eq by lra. apply Rle_trans with (2 := proj1 R1). apply bpow_le. lia.
Qed.

(** The upper bound of the code. *)
Definition fa_upper (a : faxis) : double := fadd (fa_anchor a) (fmul (of_int (fa_n a)) (fa_H a)).
Lemma bpow301 : bpow radix2 301 = bpow radix2 300 * 2.
Proof. change (bpow radix2 301) with (bpow radix2 (300 + 1)). rewrite bpow_plus. reflexivity. Qed.
Lemma bpow302 : bpow radix2 302 = bpow radix2 300 * 4.
Proof. change (bpow radix2 302) with (bpow radix2 (300 + 2)). rewrite bpow_plus. reflexivity. Qed.
(** A node of an axis (not only of the grid). *)
Lemma node_err : forall a c, ordinary a -> (0 <= c <= fa_n a)%Z ->
  fin (fa_node a c) /\
  val (fa_anchor a) + IZR c * (val (fa_size a) / IZR (fa_n a)) - 5 * u * (Rabs (val (fa_anchor a)) + val (fa_size a)) <= val (fa_node a c) <=
  val (fa_anchor a) + IZR c * (val (fa_size a) / IZR (fa_n a)) + 5 * u * (Rabs (val (fa_anchor a)) + val (fa_size a)).
Proof.
  intros a c O Hc. pose proof (cell_size_range a O) as C. pose proof (bpow_gt_0 radix2 (-348)) as Z. pose proof (n_real a O) as N. destruct (H_err a O) as (FH & e1 & H1 & EH).
  pose proof O as (Fa & Fs & Nz & Ba & S).
  set (h := val (fa_size a) / IZR (fa_n a)) in *. set (s := val (fa_size a)) in *. set (n := IZR (fa_n a)) in *. set (A := val (fa_anchor a)) in *.
  assert (Hs : s = h * n) by (unfold h; field; lra). assert (Ps : 0 < s) by (pose proof (bpow_gt_0 radix2 (-300)); lra).
  assert (Cr : 0 <= IZR c <= n) by (split; apply IZR_le; lia).
  assert (Ch : 0 <= IZR c * h <= s) by (split; [apply Rmult_le_pos; lra|rewrite Hs, (Rmult_comm h); apply Rmult_le_compat_r; lra]).
  destruct (of_int_exact c) as [Fn En]; [lia|]. pose proof u_pos as P. assert (U : u <= / 100) by (rewrite u_val; lra).
  pose proof (err_pos (IZR c * h) e1 ltac:(lra) H1) as D1.
  assert (NH : val (of_int c) * val (fa_H a) = IZR c * h * (1 + e1)) by (rewrite En, EH; ring).
  assert (Q1 : IZR c * h * u <= s * / 100) by (apply Rmult_le_compat; lra). pose proof (bpow_gt_0 radix2 300) as P300.
  assert (L302 : bpow radix2 302 <= big) by (apply bpow_le; lia). rewrite bpow302 in L302.
  assert (NN : 0 <= val (of_int c) * val (fa_H a)) by (rewrite NH; apply Rmult_le_pos; [lra|apply abs_le in H1; lra]).
  destruct (mul_err (of_int c) (fa_H a) Fn FH) as (Fnh & e4 & t4 & H4 & Ht4 & E4 & T4).
  { rewrite Rabs_pos_eq by exact NN. rewrite NH. lra. }
  set (nh := fmul (of_int c) (fa_H a)) in *.
  assert (ZT : t4 = 0 \/ IZR c * h = 0).
  { destruct (Z.eq_dec c 0) as [->|Nc]; [right; lra|left]. apply T4. rewrite Rabs_pos_eq by exact NN. rewrite NH.
    assert (C1 : 1 <= IZR c) by (apply IZR_le; lia). apply Rle_trans with (bpow radix2 (-349)); [apply bpow_le; lia|].
    assert (X : IZR c * h * u <= IZR c * h * / 100) by (apply Rmult_le_compat_l; lra). assert (X2 : 1 * h <= IZR c * h) by (apply Rmult_le_compat_r; lra).
    change (-349)%Z with (-348 + -1)%Z. rewrite bpow_plus. change (bpow radix2 (-1)) with (/2). lra. }
  assert (Enh : IZR c * h - 3 * u * s <= val nh <= IZR c * h + 3 * u * s).
  { assert (X : 3 * u * (IZR c * h) <= 3 * u * s) by (apply Rmult_le_compat_l; lra).
    assert (G : t4 = 0 -> IZR c * h - 3 * u * s <= val nh <= IZR c * h + 3 * u * s).
    { intros T0. rewrite E4, NH, T0. pose proof (two_err (IZR c * h) e1 e4 (proj1 Ch) (abs_le _ _ H1) (abs_le _ _ H4)). lra. }
    destruct ZT as [T0|Z0]; [apply G, T0|].
    rewrite Z0. assert (W0 : val (of_int c) * val (fa_H a) = 0) by (rewrite NH, Z0; ring).
    destruct (mul_rnd (of_int c) (fa_H a) Fn FH) as [_ ER]; [rewrite W0, Rabs_R0; apply Rlt_le, bpow_gt_0|]. fold nh in ER. rewrite ER, W0, rnd_0. assert (0 <= u * s) by (apply Rmult_le_pos; lra). lra. }
  pose proof (abs_le _ _ (Rle_refl (Rabs A))) as AA. pose proof (Rabs_pos A) as PA.
  assert (US : u * s <= / 100 * s) by (apply Rmult_le_compat_r; lra).
  assert (Q2 : Rabs (A + val nh) <= Rabs A + 2 * s) by (apply Rabs_le; split; lra).
  destruct (add_err (fa_anchor a) nh Fa Fnh) as (Fub & e5 & H5 & E5); [fold A; lra|].
  split; [exact Fub|]. unfold fa_node. fold nh. rewrite E5. fold A. pose proof (err_add (A + val nh) e5 (Rabs A + 2 * s) Q2 H5) as D5.
  assert (UA : 0 <= u * Rabs A) by (apply Rmult_le_pos; lra). lra.
Qed.
Lemma upper_err : forall a, ordinary a -> well_placed a -> let h := val (fa_size a) / IZR (fa_n a) in
  fin (fa_upper a) /\ val (fa_anchor a) + val (fa_size a) - 15 / 100000000 * h <= val (fa_upper a) <= val (fa_anchor a) + val (fa_size a) + 15 / 100000000 * h.
Proof.
  intros a O W h. pose proof (n_real a O) as N. destruct (node_err a (fa_n a) O) as [F E]; [destruct O as (_ & _ & Nz & _); lia|]. split; [exact F|].
  change (fa_upper a) with (fa_node a (fa_n a)). unfold well_placed in W. change (bpow radix2 28) with 268435456 in W. rewrite u_val in E.
  assert (Hs : val (fa_size a) = IZR (fa_n a) * h) by (unfold h; field; lra).
  assert (K : Rabs (val (fa_anchor a)) + val (fa_size a) <= 268435456 * h) by (apply Rmult_le_reg_l with (IZR (fa_n a)); [lra|]; rewrite Hs in W at 2; lra).
  fold h in E. rewrite <- Hs in E. lra.
Qed.

Lemma boundary_sound : forall a x, ordinary a -> well_placed a -> fin x -> val (fa_anchor a) <= val x <= val (fa_anchor a) + val (fa_size a) ->
  exists j, fa_cell_coordinate_boundary a x = Some j /\ (0 <= j <= fa_n a - 1)%Z /\ near_cell a j x.
Proof.
  intros a x O W Fx B. pose proof (cell_size_range a O) as C. pose proof (bpow_gt_0 radix2 (-348)) as Z. pose proof (n_real a O) as N. destruct (H_err a O) as (FH & e1 & H1 & EH).
  destruct (upper_err a O W) as [Fub Eub]. destruct (H_div a 1000000 O ltac:(lia)) as (Feps & e2 & H2 & Eeps). destruct (H_div a 10 O ltac:(lia)) as (Fm & e3 & H3 & Em).
  pose proof O as (Fa & Fs & Nz & Ba & S). unfold well_placed in W. change (bpow radix2 28) with 268435456 in W.
  set (h := val (fa_size a) / IZR (fa_n a)) in *. set (s := val (fa_size a)) in *. set (n := IZR (fa_n a)) in *. set (A := val (fa_anchor a)) in *.
  assert (Hs : s = h * n) by (unfold h; field; lra). assert (Ps : 0 < s) by (pose proof (bpow_gt_0 radix2 (-300)); lra).
  assert (K : Rabs A + s <= 268435456 * h) by (apply Rmult_le_reg_l with n; [lra|]; rewrite Hs in W |- *; lra).
  assert (HS : h <= s) by (rewrite Hs; rewrite <- (Rmult_1_r h) at 1; apply Rmult_le_compat_l; lra).
  pose proof (Rabs_pos A) as PA. assert (N28 : n <= 268435456) by (apply Rmult_le_reg_r with h; lra).
  pose proof (abs_le _ _ (Rle_refl (Rabs A))) as AA. pose proof u_val as UV.
  pose proof (err_pos h e1 ltac:(lra) H1) as Hh. rewrite <- EH, UV in Hh.
  pose proof (err_pos (val (fa_H a) / 1000000) e2 ltac:(lra) H2) as Heps. rewrite <- Eeps, UV in Heps.
  pose proof (err_pos (val (fa_H a) / 10) e3 ltac:(lra) H3) as Hm. rewrite <- Em, UV in Hm.
  set (eps := fdiv (fa_H a) (of_int 1000000)) in *. set (m := fdiv (fa_H a) (of_int 10)) in *. clear Eeps Em EH.
  assert (Heps' : 99 / 100000000 * h <= val eps <= 101 / 100000000 * h) by lra. assert (Hm' : 99 / 1000 * h <= val m <= 101 / 1000 * h) by lra. clear Heps Hm Hh.
  pose proof (bpow_gt_0 radix2 300) as P300. assert (L302 : bpow radix2 302 <= big) by (apply bpow_le; lia). rewrite bpow302 in L302.
  set (ub := fa_upper a) in *.
  assert (Bx : Rabs (val x - val ub) <= bpow radix2 300 * 2) by (apply Rabs_le; split; lra).
  destruct (sub_err x ub Fx Fub) as (Ft & e6 & H6 & E6); [lra|].
  pose proof (abs_le _ _ H6) as A6. set (t := fsub x ub) in *. rewrite UV in A6.
  assert (XU : Rabs (val t) = Rabs (val x - val ub) * (1 + e6)) by (rewrite E6, Rabs_mult, (Rabs_pos_eq (1 + e6)) by lra; reflexivity).
  pose proof (err_pos (Rabs (val x - val ub)) e6 (Rabs_pos _) H6) as XE. rewrite <- XU, UV in XE.
  destruct (interval_spec t eps Ft Feps) as [I1 I2].
  { split.
    - apply Rle_trans with (99 / 100000000 * bpow radix2 (-348)); [|lra]. apply Rle_trans with (bpow radix2 (-21) * bpow radix2 (-348)); [rewrite <- bpow_plus; apply bpow_le; lia|].
      apply Rmult_le_compat_r; [apply bpow_ge_0|]. change (bpow radix2 (-21)) with (/ 2097152). lra.
    - rewrite bpow301. lra. }
  { rewrite bpow302. lra. }
  unfold fa_cell_coordinate_boundary, fa_moved. fold eps m. change (fadd (fa_anchor a) (fmul (of_int (fa_n a)) (fa_H a))) with ub. fold t. cbv zeta.
  destruct (fle (fmul (fsub t (fneg eps)) (fsub t eps)) (of_int 0)) eqn:BR.
  - specialize (I1 eq_refl). clear I2.
    assert (X1 : Rabs (val x - val ub) <= 203 / 100000000 * h) by lra. apply abs_le in X1.
    assert (Q1 : Rabs (val x - val m) <= Rabs A + s + h) by (apply Rabs_le; split; lra).
    destruct (sub_err x m Fx Fm) as (Fp & e7 & H7 & E7); [lra|]. pose proof (err_add _ e7 _ Q1 H7) as D7. rewrite <- E7, UV in D7. set (p := fsub x m) in *.
    assert (Ep : A + s - 102 / 1000 * h <= val p <= A + s - 98 / 1000 * h) by lra.
    destruct (absolute_err_gen a p O Fp) as (F & f & tt & Hf & Htt & E); [fold A s; apply Rabs_le; split; lra|].
    assert (EX : n - 102 / 1000 <= exact a (val p) <= n - 98 / 1000).
    { unfold exact. fold A s n h. split; apply Rmult_le_reg_r with h; try lra; unfold Rdiv; rewrite Rmult_assoc, Rinv_l, Rmult_1_r by lra; rewrite Hs in *; lra. }
    pose proof (abs_le _ _ Hf) as Af. pose proof (abs_le _ _ Htt) as At. pose proof tiny_u as TU.
    assert (Q2 : Rabs (exact a (val p) * f) <= 268435456 * (4 * u)) by (rewrite Rabs_mult; apply Rmult_le_compat; auto using Rabs_pos; rewrite Rabs_pos_eq; lra).
    apply abs_le in Q2. rewrite UV in *.
    assert (Q : n - 1 < val (fa_absolute a p) < n) by (rewrite E; split; lra).
    assert (TR : Ztrunc (val (fa_absolute a p)) = (fa_n a - 1)%Z).
    { rewrite Ztrunc_floor by lra. apply Zfloor_imp. rewrite plus_IZR, minus_IZR. fold n. lra. }
    exists (fa_n a - 1)%Z. split; [|split; [lia|]].
    + rewrite <- TR. apply to_int_spec; [exact F|]. rewrite TR. lia.
    + apply near_exact; [exact O|]. replace (fa_n a - 1 + 1)%Z with (fa_n a) by lia. rewrite minus_IZR. fold n. pose proof (exact_range a (val x) O B) as R0. fold n in R0. rewrite UV.
      assert (EX2 : n - 1 <= exact a (val x)) by (unfold exact; fold A s n h; apply Rmult_le_reg_r with h; try lra; unfold Rdiv; rewrite Rmult_assoc, Rinv_l, Rmult_1_r by lra; rewrite Hs in *; lra).
      split; lra.
  - specialize (I2 eq_refl). clear I1.
    assert (X1 : 48 / 100000000 * h <= Rabs (val x - val ub)) by lra.
    assert (X2 : val x <= A + s - 33 / 100000000 * h).
    { unfold Rabs in X1. destruct (Rcase_abs (val x - val ub)) as [Q|Q] in X1; lra. }
    destruct (cell_coordinate_sound a x O Fx B) as (j & J1 & J2 & J3 & J4). exists j. split; [exact J1|]. split; [|exact J3]. split; [lia|].
    destruct (absolute_err a x O Fx B) as (F & f & tt & Hf & Htt & E).
    assert (EX : exact a (val x) <= n - 33 / 100000000) by (unfold exact; fold A s n h; apply Rmult_le_reg_r with h; try lra; unfold Rdiv; rewrite Rmult_assoc, Rinv_l, Rmult_1_r by lra; rewrite Hs in *; lra).
    pose proof (exact_range a (val x) O B) as R0. fold n in R0. pose proof (abs_le _ _ Htt) as At. pose proof tiny_u as TU.
    assert (Q2 : Rabs (exact a (val x) * f) <= 268435456 * (4 * u)) by (rewrite Rabs_mult; apply Rmult_le_compat; auto using Rabs_pos; rewrite Rabs_pos_eq; lra).
    apply abs_le in Q2. rewrite UV in *.
    apply Zlt_succ_le. replace (Z.succ (fa_n a - 1)) with (fa_n a) by lia. apply lt_IZR. fold n. apply Rle_lt_trans with (1 := proj1 J4). rewrite E. lra.
Qed.
