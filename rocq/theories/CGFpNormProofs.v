(** The squared norms and the threshold. *)

From Coq Require Import ZArith Reals Lra Lia Psatz List Bool Permutation.
From Coq Require Import SpecFloat.
From Flocq Require Import Core.Core IEEE754.BinarySingleNaN.
From Verif Require Import GridGeoModel ShapeModel FpModel FpProofs GridFpProofs GridFpAroundProofs ShapeFpModel ShapeFpProofs ShapeFpSumProofs CGFpModel CGFpSpec CGFpProofs CGFpGapProofs.
Import ListNotations.
Open Scope R_scope.

(** ** A squared norm is never negative *)
Definition nonnegative (x : double) : Prop := match x with B754_infinity true => False | B754_finite true _ _ _ => False | _ => True end.
Lemma nonnegative_fin : forall x, fin x -> (nonnegative x <-> 0 <= val x).
Proof.
  intros [s|s| |s m e p] F; try discriminate F; cbn [nonnegative].
  - split; [intros _; apply Rle_refl|trivial].
  - unfold val, B2R. destruct s.
    + split; [intros []|]. intros H. exfalso. assert (F2R (Float radix2 (cond_Zopp true (Z.pos m)) e) < 0); [|lra]. apply F2R_lt_0. cbn. lia.
    + split; [intros _|trivial]. apply Rlt_le, F2R_gt_0. cbn. lia.
Qed.
Lemma not_minus_infinity : forall x, B2SF x = S754_infinity false -> nonnegative x.
Proof. intros [s|[]| |s m e p] H; try discriminate H; exact I. Qed.
Lemma square_nonnegative : forall x, nonnegative (fmul x x).
Proof.
  intros x. destruct (is_finite x) eqn:F; [|destruct x as [s|[]| |s m e p]; try discriminate F; exact I].
  pose proof (Bmult_correct 53 1024 _ _ mode_NE x x) as C. cbn [round_mode] in C. destruct Rlt_bool.
  - destruct C as (C & D & _). rewrite F in D. apply nonnegative_fin; [exact D|]. change (0 <= B2R (fmul x x)). unfold fmul. rewrite C. apply (rnd_ge_0 (B2R x * B2R x)). apply Rle_0_sqr.
  - apply not_minus_infinity. unfold fmul. rewrite C, xorb_nilpotent. reflexivity.
Qed.
Lemma add_nonnegative : forall x y, nonnegative x -> nonnegative y -> nonnegative (fadd x y).
Proof.
  intros x y Hx Hy. destruct (is_finite x) eqn:Fx.
  2: { destruct x as [s|[]| |s m e p]; try discriminate Fx; try (destruct Hx; fail); destruct y as [s'|[]| |s' m' e' p']; try (destruct Hy; fail); exact I. }
  destruct (is_finite y) eqn:Fy.
  2: { destruct y as [s|[]| |s m e p]; try discriminate Fy; try (destruct Hy; fail); destruct x as [s'|[]| |s' m' e' p']; try discriminate Fx; exact I. }
  pose proof (proj1 (nonnegative_fin x Fx) Hx) as Vx. pose proof (proj1 (nonnegative_fin y Fy) Hy) as Vy.
  pose proof (Bplus_correct 53 1024 _ _ mode_NE x y Fx Fy) as C. cbn [round_mode] in C. destruct Rlt_bool eqn:E.
  - destruct C as (C & D & _). apply nonnegative_fin; [exact D|]. change (0 <= B2R (fadd x y)). unfold fadd. rewrite C. apply (rnd_ge_0 (B2R x + B2R y)). unfold val in *. lra.
  - destruct C as [C D]. apply not_minus_infinity. unfold fadd. rewrite C. destruct (Bsign x) eqn:Sx; [|reflexivity]. exfalso. symmetry in D.
    assert (Z : forall z : double, is_finite z = true -> nonnegative z -> Bsign z = true -> B2R z = 0). { intros [s|s| |[] m e p] Fz Nz Sz; try discriminate Fz; try discriminate Sz; [reflexivity|destruct Nz]. }
    rewrite (Z x Fx Hx Sx), (Z y Fy Hy D), Rplus_0_r in E. rewrite round_0 in E by apply valid_rnd_N. rewrite Rabs_R0 in E. rewrite Rlt_bool_true in E by apply bpow_gt_0. discriminate E.
Qed.
Lemma fsum_nonnegative : forall l t, Forall nonnegative l -> nonnegative (fsum l t).
Proof.
  intros l t H. assert (Z : nonnegative (of_int 0)) by exact I. induction t as [|i|a IHa b IHb]; cbn [fsum]; [exact Z| |apply add_nonnegative; assumption].
  destruct (Nat.lt_ge_cases i (length l)) as [L|L]; [|rewrite nth_overflow by exact L; exact Z]. apply (proj1 (Forall_forall _ _) H), nth_In, L.
Qed.
Lemma squares_nonnegative : forall v, Forall nonnegative (map2 fmul v v).
Proof. induction v as [|x v IH]; [constructor|]. cbn [map2]. constructor; [apply square_nonnegative|exact IH]. Qed.
Lemma below_fin : forall x y, nonnegative x -> flt x y = true -> fin x.
Proof. intros [s|[]| |s m e p] y N H; try reflexivity; [destruct N|destruct y as [s'|[]| |[] m' e' p']; discriminate H|destruct y as [s'|[]| |[] m' e' p']; discriminate H]. Qed.
Lemma norm_below_fin : forall order s v thr, flt (fsquaredNorm order s v) thr = true -> fin (fsquaredNorm order s v).
Proof. intros order s v thr H. apply (below_fin _ thr); [apply fsum_nonnegative, squares_nonnegative|exact H]. Qed.

(** ** Error of a squared norm *)
Lemma squares_pairs : forall v, map2 fmul v v = pairs_product (map (fun x => (x, x)) v).
Proof. induction v as [|x v IH]; [reflexivity|]. cbn [map2 map pairs_product fst snd]. f_equal. exact IH. Qed.
Lemma length2_pairs : forall v, Rpairs (map (fun x => (x, x)) v) = length2 (length v) (fun i => val (at_ v i)) /\ Apairs (map (fun x => (x, x)) v) = length2 (length v) (fun i => val (at_ v i)).
Proof.
  intros v. unfold length2. assert (E : map (fun i => val (at_ v i) * val (at_ v i)) (seq 0 (length v)) = map (fun x => val x * val x) v).
  { rewrite <- (map_map (fun i => at_ v i) (fun x => val x * val x)). f_equal. unfold at_. clear. induction v as [|x v IH]; [reflexivity|]. cbn [length seq map nth]. rewrite <- seq_shift, map_map. f_equal. exact IH. }
  rewrite E. unfold Rpairs, Apairs. rewrite !map_map. cbn [fst snd]. split; [reflexivity|]. f_equal. apply map_ext. intros x. apply Rabs_pos_eq, Rle_0_sqr.
Qed.
Lemma length2_pos : forall n f, 0 <= length2 n f.
Proof. intros n f. unfold length2. induction (seq 0 n) as [|i s IH]; [apply Rle_refl|]. cbn [map]. rewrite Rsum_cons. pose proof (Rle_0_sqr (f i)) as H. unfold Rsqr in H. lra. Qed.
Lemma norm_err : forall w order s v, INR w * u <= / 16 -> sum_order w (length v) (order s) -> fin (fsquaredNorm order s v) ->
  Forall fin v /\ Rabs (val (fsquaredNorm order s v) - length2 (length v) (fun i => val (at_ v i))) <= (2 * INR w + 2) * u * length2 (length v) (fun i => val (at_ v i)) + 2 * INR w * tiny.
Proof.
  intros w order s v W O F. unfold fsquaredNorm, fdot in *. rewrite squares_pairs in *. destruct (length2_pairs v) as [E1 E2].
  destruct (sum_products_inv w W (map (fun x => (x, x)) v) (order s)) as (A & _ & B); [rewrite map_length; exact O|exact F|]. rewrite E1, E2 in B. split; [|exact B].
  rewrite Forall_map in A. apply Forall_forall. intros x Hx. exact (proj1 (proj1 (Forall_forall _ _) A x Hx)).
Qed.

(** ** The threshold *)
Lemma EPS_fin : fin EPS /\ / IZR (2 ^ 64) <= val EPS.
Proof.
  split; [apply EPS_val|]. rewrite val_SF. replace (B2SF EPS) with (S754_finite false 8307674973655724 (-116)) by (vm_compute; reflexivity).
  unfold SF2R, F2R, cond_Zopp. cbn [Fnum Fexp]. change (/ IZR (2 ^ 64)) with (bpow radix2 (-64)). pose proof (bpow_gt_0 radix2 (-116)). replace (-64)%Z with (52 + -116)%Z by reflexivity. rewrite bpow_plus. change (bpow radix2 52) with 4503599627370496. nra.
Qed.
Lemma min_double_val : fin min_double /\ val min_double = least.
Proof.
  split; [vm_compute; reflexivity|]. rewrite val_SF. replace (B2SF min_double) with (S754_finite false 4503599627370496 (-1074)) by (vm_compute; reflexivity).
  unfold SF2R, F2R, cond_Zopp, least. cbn [Fnum Fexp]. replace (-1022)%Z with (52 + -1074)%Z by reflexivity. rewrite bpow_plus. change (bpow radix2 52) with 4503599627370496. reflexivity.
Qed.
Lemma not_below : forall x y, fin x -> fin y -> flt x y = false -> val y <= val x.
Proof. intros x y Fx Fy H. apply Rnot_lt_le. intros L. apply (flt_spec x y Fx Fy) in L. rewrite L in H. discriminate H. Qed.
Lemma bpow_half : forall a b, (a <= b)%Z -> bpow radix2 a <= bpow radix2 b. Proof. intros. apply bpow_le. assumption. Qed.
Lemma mul_normal : forall x y lo hi, fin x -> fin y -> (-1022 <= lo)%Z -> (hi <= 1000)%Z -> bpow radix2 lo <= val x * val y <= bpow radix2 hi ->
  fin (fmul x y) /\ exists e, Rabs e <= u /\ val (fmul x y) = val x * val y * (1 + e).
Proof.
  intros x y lo hi Fx Fy L H [B1 B2]. pose proof (bpow_gt_0 radix2 lo). assert (P : Rabs (val x * val y) = val x * val y) by (apply Rabs_pos_eq; lra).
  destruct (mul_rnd x y Fx Fy) as [F E]; [rewrite P; apply Rle_trans with (1 := B2), bpow_half, H|]. split; [exact F|].
  destruct (rnd_err (val x * val y)) as (e & t & He & _ & Et & Zt). exists e. split; [exact He|]. rewrite E, Et, Zt; [ring|]. rewrite P. apply Rle_trans with (2 := B1), bpow_half, L.
Qed.
Lemma threshold_val : forall tol bn, fin tol -> fin bn -> bpow radix2 (-400) <= val tol <= 1 -> / IZR (2 ^ 64) <= val bn <= bpow radix2 1000 ->
  exists e1 e2, Rabs e1 <= u /\ Rabs e2 <= u /\ fin (threshold_of tol bn) /\ val (threshold_of tol bn) = val tol * val tol * (1 + e1) * val bn * (1 + e2).
Proof.
  intros tol bn Ft Fb Ht Hb. pose proof u_pos. pose proof u_tiny. pose proof (bpow_gt_0 radix2 (-400)). pose proof (bpow_gt_0 radix2 (-800)).
  assert (T2 : bpow radix2 (-800) <= val tol * val tol <= 1). { change (-800)%Z with (-400 + -400)%Z. rewrite bpow_plus. split; [apply Rmult_le_compat; lra|]. rewrite <- (Rmult_1_l 1). apply Rmult_le_compat; lra. }
  destruct (mul_normal tol tol (-800) 0 Ft Ft) as (F1 & e1 & He1 & E1); [lia|lia|exact T2|]. exists e1.
  assert (V1 : bpow radix2 (-801) <= val (fmul tol tol) <= 2). { apply abs_le in He1. rewrite E1. change (-801)%Z with (-800 + -1)%Z. rewrite bpow_plus. change (bpow radix2 (-1)) with (/ 2). split; [apply Rmult_le_compat; lra|]. replace 2 with (1 * 2) by ring. apply Rmult_le_compat; lra. }
  assert (L64 : bpow radix2 (-64) = / IZR (2 ^ 64)) by reflexivity. rewrite <- L64 in Hb. pose proof (bpow_gt_0 radix2 (-64)). pose proof (bpow_gt_0 radix2 (-801)).
  assert (V2 : val (fmul tol tol) <= 1). { destruct (mul_inv tol tol F1) as (_ & _ & E). rewrite E. apply Rle_trans with (rnd 1); [apply rnd_le, T2|]. rewrite rnd_format; [apply Rle_refl|]. apply (format_bpow 0). lia. }
  destruct (mul_normal (fmul tol tol) bn (-865) 1000 F1 Fb) as (F2 & e2 & He2 & E2); [lia|lia| |].
  { change (-865)%Z with (-801 + -64)%Z. rewrite bpow_plus. split; [apply Rmult_le_compat; lra|]. rewrite <- (Rmult_1_l (bpow radix2 1000)). apply Rmult_le_compat; lra. }
  exists e2. split; [exact He1|]. split; [exact He2|].
  destruct min_double_val as [Fm Em]. assert (G1 : flt (fmul (fmul tol tol) bn) min_double = false).
  { destruct (flt _ _) eqn:C; [|reflexivity]. exfalso. apply (flt_spec _ _ F2 Fm) in C. rewrite Em, E2 in C. apply abs_le in He2.
    assert (B : bpow radix2 (-866) <= val (fmul tol tol) * val bn * (1 + e2)). { change (-866)%Z with (-801 + -64 + -1)%Z. rewrite !bpow_plus. change (bpow radix2 (-1)) with (/ 2). pose proof (Rmult_lt_0_compat _ _ (bpow_gt_0 radix2 (-801)) (bpow_gt_0 radix2 (-64))). apply Rmult_le_compat; try lra. apply Rmult_le_compat; lra. }
    pose proof (bpow_half (-1022) (-866) ltac:(lia)). unfold least in C. lra. }
  unfold threshold_of, fmax. rewrite G1. split; [exact F2|]. rewrite E2, E1. reflexivity.
Qed.

(** Below the threshold: the true norm of the recorded residual is at most the tolerance times that of b. *)
Lemma below_threshold : forall w order tol r b sr, (Z.of_nat w <= 2 ^ 40)%Z -> length r = length b -> sum_order w (length b) (order NormB) -> sum_order w (length b) (order sr) ->
  fin tol -> bpow radix2 (-400) <= val tol <= 1 -> fin (fsquaredNorm order NormB b) -> val (fsquaredNorm order NormB b) <= bpow radix2 1000 ->
  flt (fsquaredNorm order NormB b) EPS = false -> flt (fsquaredNorm order sr r) (threshold_of tol (fsquaredNorm order NormB b)) = true ->
  length2 (length b) (fun i => val (at_ r i)) <= (1 + 8 * (INR w + 2) * u) * (val tol * val tol) * length2 (length b) (fun i => val (at_ b i)).
Proof.
  intros w order tol r b sr Hw Lr Ob Or Ft Ht Fb Bb He Hr. set (bn := fsquaredNorm order NormB b) in *. set (rn := fsquaredNorm order sr r) in *.
  pose proof u_pos as U. pose proof u_tiny as U16. pose proof tiny_pos as T. pose proof (pos_INR w) as Pw.
  assert (Hw' : INR w <= IZR (2 ^ 40)) by (rewrite INR_IZR_INZ; apply IZR_le, Hw).
  assert (Wu : INR w * u <= / IZR (2 ^ 13)). { apply Rle_trans with (IZR (2 ^ 40) * u); [apply Rmult_le_compat_r; lra|]. rewrite u_val. lra. }
  assert (W : INR w * u <= / 16) by lra.
  destruct EPS_fin as [FE LE]. pose proof (not_below _ _ Fb FE He) as Lb. assert (Hb : / IZR (2 ^ 64) <= val bn <= bpow radix2 1000) by lra.
  destruct (threshold_val tol bn Ft Fb Ht Hb) as (e1 & e2 & He1 & He2 & Fth & Eth). pose proof (norm_below_fin order sr r _ Hr) as Fr. fold rn in Fr.
  apply (flt_spec _ _ Fr Fth) in Hr. destruct (norm_err w order NormB b W Ob Fb) as [_ Nb]. rewrite <- Lr in Or. destruct (norm_err w order sr r W Or Fr) as [_ Nr]. fold bn in Nb. fold rn in Nr. rewrite Lr in Nr.
  set (R2 := length2 (length b) (fun i => val (at_ r i))) in *. set (B2 := length2 (length b) (fun i => val (at_ b i))) in *. pose proof (length2_pos (length b) (fun i => val (at_ r i))) as PR. pose proof (length2_pos (length b) (fun i => val (at_ b i))) as PB. fold R2 in PR. fold B2 in PB.
  set (d := (2 * INR w + 2) * u) in *. assert (D : 0 < d <= / 16) by (unfold d; split; [apply Rmult_lt_0_compat; lra|]; rewrite Rmult_plus_distr_r, Rmult_assoc; rewrite u_val in *; lra).
  assert (WT : 2 * INR w * tiny <= bpow radix2 (-1034)). { change (-1034)%Z with (1 + 40 + -1075)%Z. rewrite !bpow_plus. change (bpow radix2 1) with 2. change (bpow radix2 40) with (IZR (2 ^ 40)). fold tiny. apply Rmult_le_compat_r; lra. }
  apply abs_le in Nb, Nr. rewrite Eth in Hr.
  set (t := val tol * val tol) in *. assert (T2 : bpow radix2 (-800) <= t <= 1). { pose proof (bpow_gt_0 radix2 (-400)). unfold t. change (-800)%Z with (-400 + -400)%Z. rewrite bpow_plus. split; [apply Rmult_le_compat; lra|]. rewrite <- (Rmult_1_l 1). apply Rmult_le_compat; lra. }
  assert (Q1 : bpow radix2 (-1034) <= / IZR (2 ^ 66)) by (change (/ IZR (2 ^ 66)) with (bpow radix2 (-66)); apply bpow_half; lia).
  assert (LB : / IZR (2 ^ 66) <= B2). { assert (d * B2 <= / 16 * B2) by (apply Rmult_le_compat_r; lra). lra. }
  assert (Q2 : bpow radix2 (-1034) <= u * (t * B2)).
  { apply Rle_trans with (bpow radix2 (-53 + (-800 + -66))); [apply bpow_half; lia|]. rewrite !bpow_plus. change (bpow radix2 (-53)) with u. change (bpow radix2 (-66)) with (/ IZR (2 ^ 66)).
    apply Rmult_le_compat_l; [lra|]. pose proof (bpow_gt_0 radix2 (-800)). apply Rmult_le_compat; lra. }
  assert (Q3 : u * (t * B2) <= u * B2). { apply Rmult_le_compat_l; [lra|]. rewrite <- (Rmult_1_l B2) at 2. apply Rmult_le_compat_r; lra. }
  assert (Pt : 0 < t) by (pose proof (bpow_gt_0 radix2 (-800)); lra).
  assert (Bn : val bn <= (1 + d + u) * B2) by lra. assert (Bn0 : 0 <= val bn) by lra.
  apply abs_le in He1, He2. assert (H1 : t * (1 + e1) * val bn * (1 + e2) <= t * (1 + u) * ((1 + d + u) * B2) * (1 + u)).
  { apply Rmult_le_compat; [| |apply Rmult_le_compat|]; try lra; [apply Rmult_le_pos; [apply Rmult_le_pos; lra|exact Bn0]|apply Rmult_le_pos; lra|apply Rmult_le_compat_l; lra]. }
  set (y := t * B2) in *. assert (Py : 0 <= y) by (apply Rmult_le_pos; lra).
  assert (H2 : t * (1 + u) * ((1 + d + u) * B2) * (1 + u) = y * ((1 + u) * (1 + u) * (1 + d + u))) by (unfold y; ring). rewrite H2 in H1.
  assert (H3 : (1 + u) * (1 + u) * (1 + d + u) <= 1 + d + 4 * u). { assert (u * u <= / 16 * u) by (apply Rmult_le_compat_r; lra). assert (u * d <= / 16 * u) by (rewrite (Rmult_comm u); apply Rmult_le_compat_r; lra). assert (u * u * d <= / 16 * u * / 16) by (apply Rmult_le_compat; try lra; apply Rmult_le_pos; lra). assert (u * u * u <= / 16 * u * / 16) by (apply Rmult_le_compat; try lra; apply Rmult_le_pos; lra). lra. }
  assert (H4 : y * ((1 + u) * (1 + u) * (1 + d + u)) <= y * (1 + d + 4 * u)) by (apply Rmult_le_compat_l; assumption).
  assert (H5 : R2 * (1 - d) <= y * (1 + d + 5 * u)) by lra.
  assert (H6 : R2 <= y * (1 + 3 * d + 8 * u)).
  { apply Rmult_le_reg_r with (1 - d); [lra|]. apply Rle_trans with (1 := H5). rewrite Rmult_assoc. apply Rmult_le_compat_l; [exact Py|]. assert (d * d <= / 16 * d) by (apply Rmult_le_compat_r; lra). assert (u * d <= / 16 * u) by (rewrite (Rmult_comm u); apply Rmult_le_compat_r; lra). lra. }
  apply Rle_trans with (1 := H6). fold t. rewrite Rmult_assoc. fold y. rewrite (Rmult_comm y). apply Rmult_le_compat_r; [exact Py|]. unfold d. assert (0 <= INR w * u) by (apply Rmult_le_pos; lra). lra.
Qed.
