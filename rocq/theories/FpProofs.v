(** Rounding errors of the operations of [FpModel]. *)

From Coq Require Import ZArith Reals Lra Lia Psatz.
From Flocq Require Import Core.Core IEEE754.BinarySingleNaN Relative Plus_error.
From Verif Require Import FpModel.
Open Scope R_scope.

Notation fexp64 := (SpecFloat.fexp 53 1024).
Definition val (x : double) : R := B2R x.
Definition fin (x : double) : Prop := is_finite x = true.
Definition rnd (x : R) : R := round radix2 fexp64 ZnearestE x.
(** Unit roundoff and the largest error of an underflow. *)
Definition u : R := bpow radix2 (-53).
Definition tiny : R := bpow radix2 (-1075).
Definition big : R := bpow radix2 1000.
Definition least : R := bpow radix2 (-1022).

Lemma u_pos : 0 < u. Proof. apply bpow_gt_0. Qed.
Lemma tiny_pos : 0 < tiny. Proof. apply bpow_gt_0. Qed.
Lemma fexp64_FLT : fexp64 = FLT_exp (-1074) 53. Proof. reflexivity. Qed.
Global Instance valid64 : Valid_exp fexp64. Proof. rewrite fexp64_FLT. apply FLT_exp_valid. reflexivity. Qed.

Lemma format_val : forall x, generic_format radix2 fexp64 (val x).
Proof. intros x. apply generic_format_B2R. Qed.
Lemma format_bpow : forall e, (-1074 <= e)%Z -> generic_format radix2 fexp64 (bpow radix2 e).
Proof. intros e H. apply generic_format_bpow. rewrite fexp64_FLT. unfold FLT_exp. lia. Qed.
Lemma rnd_le : forall x y, x <= y -> rnd x <= rnd y.
Proof. intros x y H. apply round_le; [apply valid64|apply valid_rnd_N|exact H]. Qed.
Lemma rnd_0 : rnd 0 = 0. Proof. apply round_0. apply valid_rnd_N. Qed.
Lemma rnd_ge_0 : forall x, 0 <= x -> 0 <= rnd x. Proof. intros x H. rewrite <- rnd_0. apply rnd_le, H. Qed.
Lemma rnd_le_0 : forall x, x <= 0 -> rnd x <= 0. Proof. intros x H. rewrite <- rnd_0. apply rnd_le, H. Qed.
Lemma rnd_format : forall x, generic_format radix2 fexp64 x -> rnd x = x.
Proof. intros x H. apply round_generic; [apply valid_rnd_N|exact H]. Qed.
Lemma rnd_big : forall x, Rabs x <= big -> Rabs (rnd x) < bpow radix2 1024.
Proof.
  intros x H. apply Rle_lt_trans with big; [|apply bpow_lt; lia]. apply abs_round_le_generic; [apply valid64|apply valid_rnd_N|apply format_bpow; lia|exact H].
Qed.

Lemma rnd_err : forall x, exists e t, Rabs e <= u /\ Rabs t <= tiny /\ rnd x = x * (1 + e) + t /\ (least <= Rabs x -> t = 0).
Proof.
  intros x. assert (U : /2 * bpow radix2 (-53 + 1) = u) by (unfold u; rewrite bpow_plus; change (bpow radix2 1) with 2; lra).
  assert (T : /2 * bpow radix2 (-1074) = tiny) by (unfold tiny; change (-1075)%Z with (-1074 + -1)%Z; rewrite bpow_plus; change (bpow radix2 (-1)) with (/2); lra).
  destruct (Rle_or_lt least (Rabs x)) as [L|L].
  - destruct (relative_error_N_FLT_ex radix2 (-1074) 53 eq_refl (fun z => negb (Z.even z)) x L) as (e & A & B).
    exists e, 0. rewrite Rabs_R0. repeat split; [rewrite <- U; exact A|apply Rlt_le, tiny_pos|unfold rnd; rewrite fexp64_FLT, Rplus_0_r; exact B].
  - destruct (error_N_FLT radix2 (-1074) 53 eq_refl (fun z => negb (Z.even z)) x) as (e & t & A & B & _ & D).
    exists e, t. rewrite <- U, <- T. repeat split; [exact A|exact B|exact D|intros L'; lra].
Qed.
Lemma rnd_plus_err : forall x y, generic_format radix2 fexp64 x -> generic_format radix2 fexp64 y -> exists e, Rabs e <= u /\ rnd (x + y) = (x + y) * (1 + e).
Proof.
  intros x y Fx Fy. destruct (FLT_plus_error_N_ex radix2 (-1074) 53 (fun z => negb (Z.even z)) x y Fx Fy) as (e & A & B).
  exists e. split; [|exact B]. eapply Rle_trans; [exact A|]. assert (U : u_ro radix2 53 = u) by (unfold u_ro, u; change (- (53) + 1)%Z with (-53 + 1)%Z; rewrite (bpow_plus radix2 (-53) 1); change (bpow radix2 1) with 2; lra).
  rewrite U. pose proof u_pos. apply Rmult_le_reg_r with (1 + u); [lra|]. unfold Rdiv. rewrite Rmult_assoc, Rinv_l by lra. nra.
Qed.

(** The operations, when the result does not exceed 2^1000. *)
Lemma add_rnd : forall x y, fin x -> fin y -> Rabs (val x + val y) <= big -> fin (fadd x y) /\ val (fadd x y) = rnd (val x + val y).
Proof.
  intros x y Fx Fy B. pose proof (Bplus_correct 53 1024 _ _ mode_NE x y Fx Fy) as H. cbn [round_mode] in H.
  rewrite Rlt_bool_true in H by (apply rnd_big, B). destruct H as (A & C & _). split; [exact C|exact A].
Qed.
Lemma sub_rnd : forall x y, fin x -> fin y -> Rabs (val x - val y) <= big -> fin (fsub x y) /\ val (fsub x y) = rnd (val x - val y).
Proof.
  intros x y Fx Fy B. pose proof (Bminus_correct 53 1024 _ _ mode_NE x y Fx Fy) as H. cbn [round_mode] in H.
  rewrite Rlt_bool_true in H by (apply rnd_big, B). destruct H as (A & C & _). split; [exact C|exact A].
Qed.
Lemma mul_rnd : forall x y, fin x -> fin y -> Rabs (val x * val y) <= big -> fin (fmul x y) /\ val (fmul x y) = rnd (val x * val y).
Proof.
  intros x y Fx Fy B. pose proof (Bmult_correct 53 1024 _ _ mode_NE x y) as H. cbn [round_mode] in H.
  rewrite Rlt_bool_true in H by (apply rnd_big, B). destruct H as (A & C & _). split; [|exact A]. unfold fin. unfold fmul. rewrite C, Fx, Fy. reflexivity.
Qed.
Lemma div_rnd : forall x y, fin x -> val y <> 0 -> Rabs (val x / val y) <= big -> fin (fdiv x y) /\ val (fdiv x y) = rnd (val x / val y).
Proof.
  intros x y Fx Ny B. pose proof (Bdiv_correct 53 1024 _ _ mode_NE x y Ny) as H. cbn [round_mode] in H.
  rewrite Rlt_bool_true in H by (apply rnd_big, B). destruct H as (A & C & _). split; [|exact A]. unfold fin, fdiv. rewrite C. exact Fx.
Qed.

Lemma add_err : forall x y, fin x -> fin y -> Rabs (val x + val y) <= big -> fin (fadd x y) /\ exists e, Rabs e <= u /\ val (fadd x y) = (val x + val y) * (1 + e).
Proof.
  intros x y Fx Fy B. destruct (add_rnd x y Fx Fy B) as [A E]. split; [exact A|]. rewrite E. apply rnd_plus_err; apply format_val.
Qed.
Lemma sub_err : forall x y, fin x -> fin y -> Rabs (val x - val y) <= big -> fin (fsub x y) /\ exists e, Rabs e <= u /\ val (fsub x y) = (val x - val y) * (1 + e).
Proof.
  intros x y Fx Fy B. destruct (sub_rnd x y Fx Fy B) as [A E]. split; [exact A|]. rewrite E. apply rnd_plus_err; [apply format_val|apply generic_format_opp, format_val].
Qed.
Lemma mul_err : forall x y, fin x -> fin y -> Rabs (val x * val y) <= big ->
  fin (fmul x y) /\ exists e t, Rabs e <= u /\ Rabs t <= tiny /\ val (fmul x y) = val x * val y * (1 + e) + t /\ (least <= Rabs (val x * val y) -> t = 0).
Proof. intros x y Fx Fy B. destruct (mul_rnd x y Fx Fy B) as [A E]. split; [exact A|]. rewrite E. apply rnd_err. Qed.
Lemma div_err : forall x y, fin x -> val y <> 0 -> Rabs (val x / val y) <= big ->
  fin (fdiv x y) /\ exists e t, Rabs e <= u /\ Rabs t <= tiny /\ val (fdiv x y) = val x / val y * (1 + e) + t /\ (least <= Rabs (val x / val y) -> t = 0).
Proof. intros x y Fx Ny B. destruct (div_rnd x y Fx Ny B) as [A E]. split; [exact A|]. rewrite E. apply rnd_err. Qed.

(** Integers below 2^53 are exact. *)
Lemma format_int : forall z, (Z.abs z <= 2 ^ 53)%Z -> generic_format radix2 fexp64 (IZR z).
Proof.
  intros z H. assert (E : IZR z = F2R (Float radix2 z 0)) by (unfold F2R; cbn; lra).
  destruct (Z.eq_dec (Z.abs z) (2 ^ 53)) as [D|D].
  - assert (B : generic_format radix2 fexp64 (IZR (2 ^ 53))) by (change (2 ^ 53)%Z with (Zpower radix2 53); rewrite IZR_Zpower by lia; apply format_bpow; lia).
    destruct (Z.abs_spec z) as [[_ A]|[_ A]]; rewrite D in A; [rewrite <- A; exact B|]. replace z with (- (2 ^ 53))%Z by lia. rewrite opp_IZR. apply generic_format_opp, B.
  - rewrite fexp64_FLT. apply generic_format_FLT. exists (Float radix2 z 0); [exact E| |cbn; lia]. cbn. change (Z.pow_pos 2 53) with (2 ^ 53)%Z. lia.
Qed.
Lemma of_int_exact : forall z, (Z.abs z <= 2 ^ 53)%Z -> fin (of_int z) /\ val (of_int z) = IZR z.
Proof.
  intros z H. pose proof (binary_normalize_correct 53 1024 _ _ mode_NE z 0 false) as C. cbv zeta in C.
  assert (E : F2R (Float radix2 z 0) = IZR z) by (unfold F2R; cbn; lra). rewrite E in C. cbn [round_mode] in C.
  assert (R0 : round radix2 fexp64 ZnearestE (IZR z) = IZR z) by (apply rnd_format, format_int, H).
  rewrite Rlt_bool_true in C.
  - destruct C as (A & B & _). split; [exact B|]. unfold val, of_int. rewrite A. exact R0.
  - rewrite R0. rewrite <- abs_IZR. apply Rle_lt_trans with (IZR (2 ^ 53)); [apply IZR_le, H|]. change (2 ^ 53)%Z with (Zpower radix2 53). rewrite IZR_Zpower by lia. apply bpow_lt. lia.
Qed.

(** Comparisons and conversions. *)
Lemma flt_spec : forall x y, fin x -> fin y -> (flt x y = true <-> val x < val y).
Proof. intros x y Fx Fy. unfold flt. rewrite (Bltb_correct _ _ x y Fx Fy). split; [apply Rlt_bool_true_iff || (intros H; destruct (Rlt_bool_spec (B2R x) (B2R y)); [assumption|discriminate])|apply Rlt_bool_true]. Qed.
Lemma fle_spec : forall x y, fin x -> fin y -> (fle x y = true <-> val x <= val y).
Proof. intros x y Fx Fy. unfold fle. rewrite (Bleb_correct _ _ x y Fx Fy). split; [intros H; destruct (Rle_bool_spec (B2R x) (B2R y)); [assumption|discriminate]|apply Rle_bool_true]. Qed.
Lemma fix_round : forall f x, round radix2 (FIX_exp 0) f x = IZR (f x).
Proof. intros f x. unfold round, F2R, scaled_mantissa, cexp, FIX_exp. cbn. rewrite !Rmult_1_r. reflexivity. Qed.
Lemma btrunc_val : forall x : double, Btrunc x = Ztrunc (val x).
Proof. intros x. apply eq_IZR. rewrite (Btrunc_correct 53 1024 _ x). apply fix_round. Qed.
Lemma to_int_spec : forall x, fin x -> (- 2 ^ 63 <= Ztrunc (val x) < 2 ^ 63)%Z -> to_int x = Some (Ztrunc (val x)).
Proof.
  intros x F B. unfold to_int. rewrite F, btrunc_val. cbv zeta. destruct (Z.leb_spec (- 2 ^ 63) (Ztrunc (val x))) as [_|C]; [|lia].
  destruct (Z.ltb_spec (Ztrunc (val x)) (2 ^ 63)) as [_|C]; [reflexivity|lia].
Qed.
Lemma to_int_inv : forall x z, to_int x = Some z -> fin x /\ z = Ztrunc (val x).
Proof.
  intros x z. unfold to_int, fin. destruct (is_finite x); [|discriminate]. rewrite btrunc_val. cbv zeta. destruct (_ && _)%bool; [|discriminate]. intros H. injection H as <-. auto.
Qed.
Lemma fround_val : forall x, fin x -> fin (fround x) /\ val (fround x) = IZR (ZnearestA (val x)).
Proof. intros x F. destruct (Bnearbyint_correct 53 1024 _ mode_NA x) as (A & B & _). split; [unfold fin, fround; rewrite B; exact F|]. unfold val, fround. rewrite A. apply fix_round. Qed.
Lemma ffloor_val : forall x, fin x -> fin (ffloor x) /\ val (ffloor x) = IZR (Zfloor (val x)).
Proof. intros x F. destruct (Bnearbyint_correct 53 1024 _ mode_DN x) as (A & B & _). split; [unfold fin, ffloor; rewrite B; exact F|]. unfold val, ffloor. rewrite A. apply fix_round. Qed.
Lemma fneg_val : forall x, fin x -> fin (fneg x) /\ val (fneg x) = - val x.
Proof. intros x F. split; [unfold fin, fneg; rewrite is_finite_Bopp; exact F|apply B2R_Bopp]. Qed.
