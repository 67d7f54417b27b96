(** Proofs about contains and cells_around with doubles (GridFpModel.v). *)

From Coq Require Import ZArith Reals Lra Lia Psatz List Bool.
From Coq Require Import SpecFloat.
From Flocq Require Import Core.Core IEEE754.BinarySingleNaN.
From Verif Require Import GridModel GridGeoModel GridGeoSpec GridGeoProofs FpModel FpProofs GridFpModel GridFpProofs.
Import ListNotations.
Open Scope R_scope.

(** ** Constants *)

Lemma val_SF : forall x : double, val x = SF2R radix2 (B2SF x).
Proof. intros x. unfold val. symmetry. apply SF2R_B2SF. Qed.
Lemma EPS_val : fin EPS /\ 0 < val EPS <= bpow radix2 (-63).
Proof.
  split; [vm_compute; reflexivity|]. rewrite val_SF. replace (B2SF EPS) with (S754_finite false 8307674973655724 (-116)) by (vm_compute; reflexivity).
  unfold SF2R, F2R, cond_Zopp. cbn [Fnum Fexp]. pose proof (bpow_gt_0 radix2 (-116)). replace (-63)%Z with (53 + -116)%Z by reflexivity. rewrite bpow_plus. change (bpow radix2 53) with 9007199254740992. split; nra.
Qed.
Lemma EPS2_val : fin (fmul EPS EPS) /\ 0 < val (fmul EPS EPS) < bpow radix2 (-106).
Proof.
  split; [vm_compute; reflexivity|]. rewrite val_SF. replace (B2SF (fmul EPS EPS)) with (S754_finite false 7662477704329444 (-179)) by (vm_compute; reflexivity).
  unfold SF2R, F2R, cond_Zopp. cbn [Fnum Fexp]. pose proof (bpow_gt_0 radix2 (-179)). replace (-106)%Z with (73 + -179)%Z by reflexivity. rewrite bpow_plus. change (bpow radix2 73) with 9444732965739290427392. split; nra.
Qed.
Lemma minus_EPS_val : fin (fsub (of_int 0) EPS) /\ - bpow radix2 (-63) <= val (fsub (of_int 0) EPS) < 0.
Proof.
  split; [vm_compute; reflexivity|]. rewrite val_SF. replace (B2SF (fsub (of_int 0) EPS)) with (S754_finite true 8307674973655724 (-116)) by (vm_compute; reflexivity).
  unfold SF2R, F2R, cond_Zopp. cbn [Fnum Fexp]. pose proof (bpow_gt_0 radix2 (-116)). replace (-63)%Z with (53 + -116)%Z by reflexivity. rewrite bpow_plus. change (bpow radix2 53) with 9007199254740992.
  change (if true then (- Z.pos 8307674973655724)%Z else Z.pos 8307674973655724) with (- (8307674973655724))%Z. rewrite opp_IZR. split; lra.
Qed.
Lemma one_plus_EPS : fadd (of_int 1) EPS = of_int 1.
Proof. apply B2SF_inj. vm_compute. reflexivity. Qed.

(** ** contains *)

Lemma rnd_0_le : forall x y, 0 <= x <= y -> generic_format radix2 fexp64 y -> 0 <= rnd x <= y.
Proof. intros x y [A B] F. split; [apply rnd_ge_0; exact A|]. rewrite <- (rnd_format y F). apply rnd_le. exact B. Qed.
Lemma contains_complete : forall a x, ordinary a -> fin x -> val (fa_anchor a) <= val x <= val (fa_anchor a) + val (fa_size a) -> fa_contains EPS a x = true.
Proof.
  intros a x (Fa & Fs & _ & _ & S) Fx B. pose proof (bpow_gt_0 radix2 (-300)) as P. assert (Bg : bpow radix2 300 <= big) by (apply bpow_le; lia).
  destruct (sub_rnd x (fa_anchor a) Fx Fa) as (Fd & Ed); [rewrite Rabs_pos_eq; lra|].
  assert (D : 0 <= val (fsub x (fa_anchor a)) <= val (fa_size a)) by (rewrite Ed; apply rnd_0_le; [lra|apply format_val]).
  assert (Q : 0 <= val (fsub x (fa_anchor a)) / val (fa_size a) <= 1).
  { split; apply Rmult_le_reg_r with (val (fa_size a)); try lra; unfold Rdiv; rewrite Rmult_assoc, Rinv_l, Rmult_1_r by lra; lra. }
  destruct (div_rnd (fsub x (fa_anchor a)) (fa_size a) Fd) as (Fq & Eq); [lra| |].
  { rewrite Rabs_pos_eq by lra. assert (bpow radix2 0 <= big) by (apply bpow_le; lia). cbn [bpow] in H. lra. }
  destruct (of_int_exact 1) as [F1 E1]; [lia|].
  assert (V : 0 <= val (fdiv (fsub x (fa_anchor a)) (fa_size a)) <= 1) by (rewrite Eq; apply rnd_0_le; [exact Q|change 1 with (IZR 1); apply format_int; lia]).
  unfold fa_contains. cbv zeta. destruct minus_EPS_val as [Fm Em]. rewrite one_plus_EPS.
  destruct (flt (fdiv _ _) (fsub (of_int 0) EPS)) eqn:C1; [apply (flt_spec _ _ Fq Fm) in C1; lra|].
  destruct (flt (of_int 1) _) eqn:C2; [apply (flt_spec _ _ F1 Fq) in C2; lra|reflexivity].
Qed.
Lemma contains_sound : forall a x, ordinary a -> fin x -> Rabs (val x) <= bpow radix2 600 -> fa_contains EPS a x = true ->
  val (fa_anchor a) - bpow radix2 (-62) * val (fa_size a) <= val x <= val (fa_anchor a) + (1 + bpow radix2 (-51)) * val (fa_size a).
Proof.
  intros a x (Fa & Fs & _ & Ha & S) Fx Hx C. pose proof (bpow_gt_0 radix2 (-300)) as P. assert (Bg : bpow radix2 300 <= bpow radix2 600) by (apply bpow_le; lia).
  pose proof (abs_le _ _ Hx) as Ax. pose proof (abs_le _ _ Ha) as Aa.
  assert (Bd : Rabs (val x - val (fa_anchor a)) <= bpow radix2 601).
  { apply Rabs_le. replace (bpow radix2 601) with (2 * bpow radix2 600) by (rewrite (bpow_plus_1 radix2 600 : bpow radix2 601 = _); reflexivity). lra. }
  destruct (sub_err x (fa_anchor a) Fx Fa) as (Fd & e & He & Ed); [apply Rle_trans with (1 := Bd), bpow_le; lia|].
  pose proof u_pos as U0. assert (U : u <= / 100) by (rewrite u_val; lra). pose proof (abs_le _ _ He) as Ae.
  set (y := val x - val (fa_anchor a)) in *.
  assert (Bq : Rabs (val (fsub x (fa_anchor a)) / val (fa_size a)) <= big).
  { unfold Rdiv. rewrite Ed, !Rabs_mult, (Rabs_pos_eq (/ val (fa_size a))) by (apply Rlt_le, Rinv_0_lt_compat; lra).
    assert (I : / val (fa_size a) <= bpow radix2 300). { replace 300%Z with (- (-300))%Z by reflexivity. rewrite bpow_opp. apply Rinv_le; lra. }
    assert (I0 : 0 < / val (fa_size a)) by (apply Rinv_0_lt_compat; lra). apply Rle_trans with (bpow radix2 601 * 2 * bpow radix2 300).
    - apply Rmult_le_compat; [apply Rmult_le_pos; apply Rabs_pos|lra| |exact I]. apply Rmult_le_compat; [apply Rabs_pos|apply Rabs_pos|exact Bd|]. apply Rabs_le. lra.
    - change 2 with (bpow radix2 1). rewrite <- !bpow_plus. apply bpow_le. lia. }
  destruct (div_err (fsub x (fa_anchor a)) (fa_size a) Fd) as (Fq & f & t & Hf & Ht & Eq & _); [lra|exact Bq|].
  unfold fa_contains in C. cbv zeta in C. destruct minus_EPS_val as [Fm Em]. rewrite one_plus_EPS in C. destruct (of_int_exact 1) as [F1 E1]; [lia|].
  set (d := fdiv (fsub x (fa_anchor a)) (fa_size a)) in *.
  destruct (flt d (fsub (of_int 0) EPS)) eqn:C1; [discriminate C|]. destruct (flt (of_int 1) d) eqn:C2; [discriminate C|].
  assert (L : - bpow radix2 (-63) <= val d). { apply Rnot_lt_le. intros K. assert (flt d (fsub (of_int 0) EPS) = true) by (apply (flt_spec _ _ Fq Fm); lra). congruence. }
  assert (R1 : val d <= 1). { apply Rnot_lt_le. intros K. assert (flt (of_int 1) d = true) by (apply (flt_spec _ _ F1 Fq); rewrite E1; exact K). congruence. }
  rewrite Ed in Eq. set (s := val (fa_size a)) in *. assert (S0 : 0 < s) by lra. apply abs_le in Hf, Ht.
  assert (T : tiny <= bpow radix2 (-70)) by (apply bpow_le; lia).
  set (z := y / s). assert (Ez : y = z * s) by (unfold z; field; lra).
  assert (Eq2 : val d = z * ((1 + e) * (1 + f)) + t) by (rewrite Eq; unfold z; field; lra).
  assert (EF : (1 - u) * (1 - u) <= (1 + e) * (1 + f) <= (1 + u) * (1 + u)) by (split; apply Rmult_le_compat; lra).
  set (k := (1 + e) * (1 + f)) in *.
  assert (Z : - bpow radix2 (-62) <= z <= 1 + bpow radix2 (-51)).
  { rewrite u_val in EF. change (bpow radix2 (-63)) with (/ 9223372036854775808) in L. change (bpow radix2 (-62)) with (/ 4611686018427387904). change (bpow radix2 (-51)) with (/ 2251799813685248).
    change (bpow radix2 (-70)) with (/ 1180591620717411303424) in T. clearbody k z. clear - L R1 Eq2 EF T Ht. split; apply Rnot_lt_le; intros K.
    - assert (z * k <= z * (3 / 4)) by nra. lra.
    - assert (z * k >= (1 + / 2251799813685248) * k) by nra. lra. }
  assert (M : - bpow radix2 (-62) * s <= z * s <= (1 + bpow radix2 (-51)) * s) by (split; apply Rmult_le_compat_r; lra).
  rewrite <- Ez in M. unfold y in M. lra.
Qed.

(** ** cells_around *)

(** From 1/2 on, the only doubles that are "close" to an integer are the integers. *)
Lemma half_grid : forall q, generic_format radix2 fexp64 q -> / 2 <= Rabs q -> exists k : Z, q = IZR k * bpow radix2 (-53).
Proof.
  intros q F L. rewrite F. unfold F2R. cbn [Fnum Fexp]. set (m := Ztrunc _). assert (C : (-53 <= cexp radix2 fexp64 q)%Z).
  { unfold cexp. rewrite fexp64_FLT. unfold FLT_exp. assert (0 <= mag radix2 q)%Z; [|lia].
    apply mag_ge_bpow. change (bpow radix2 (0 - 1)) with (/ 2). exact L. }
  exists (m * 2 ^ (cexp radix2 fexp64 q + 53))%Z. rewrite mult_IZR. change (2 ^ (cexp radix2 fexp64 q + 53))%Z with (Zpower radix2 (cexp radix2 fexp64 q + 53)). rewrite IZR_Zpower by lia.
  rewrite Rmult_assoc, <- bpow_plus. do 2 f_equal. lia.
Qed.
Lemma near_integer_spec : forall q, fin q -> / 2 <= Rabs (val q) -> (near_integer q = true <-> exists z, val q = IZR z).
Proof.
  intros q F L. destruct (half_grid _ (format_val q) L) as [k K]. destruct (fround_val q F) as [Fr Er]. destruct EPS2_val as [F2 E2].
  set (z := ZnearestA (val q)) in *.
  assert (D : Rabs (val q - IZR z) <= / 2) by (rewrite Rabs_minus_sym; unfold z; pose proof (Znearest_half (Z.leb 0) (val q)); rewrite Rabs_minus_sym; exact H).
  assert (Ek : val q - IZR z = IZR (k - z * 2 ^ 53) * bpow radix2 (-53)).
  { rewrite minus_IZR, mult_IZR, K. change (2 ^ 53)%Z with (Zpower radix2 53). rewrite IZR_Zpower by lia. rewrite Rmult_minus_distr_r, Rmult_assoc, <- bpow_plus. cbn. ring. }
  set (m := (k - z * 2 ^ 53)%Z) in *. pose proof (bpow_gt_0 radix2 (-53)) as P.
  assert (Bm : (Z.abs m <= 2 ^ 52)%Z).
  { apply le_IZR. rewrite abs_IZR. apply Rmult_le_reg_r with (bpow radix2 (-53)); [exact P|]. rewrite <- (Rabs_pos_eq (bpow radix2 (-53))) at 1 by lra. rewrite <- Rabs_mult, <- Ek.
    change (2 ^ 52)%Z with (Zpower radix2 52). rewrite IZR_Zpower by lia. rewrite <- bpow_plus. exact D. }
  assert (Fd : generic_format radix2 fexp64 (val q - IZR z)).
  { rewrite fexp64_FLT. apply generic_format_FLT. exists (Float radix2 m (-53)); [exact Ek|cbn [Fnum]; change (Zpower radix2 53) with (2 ^ 53)%Z; lia|cbn; lia]. }
  destruct (sub_rnd q (fround q) F Fr) as [Fs Es]. { rewrite Er. apply Rle_trans with (1 := D). apply Rle_trans with (bpow radix2 0); [cbn; lra|apply bpow_le; lia]. }
  rewrite Er, rnd_format in Es by exact Fd.
  destruct (mul_rnd (fsub q (fround q)) (fsub q (fround q)) Fs Fs) as [Fm Em].
  { rewrite Es, Rabs_mult. apply Rle_trans with (bpow radix2 0); [|apply bpow_le; lia]. cbn [bpow]. pose proof (Rabs_pos (val q - IZR z)). nra. }
  unfold near_integer. cbv zeta. rewrite (flt_spec _ _ Fm F2). rewrite Em, Es. split.
  - intros H. exists z. destruct (Z.eq_dec m 0) as [Z|Z]; [rewrite Z in Ek; cbn in Ek; lra|]. exfalso.
    assert (M : 1 <= Rabs (IZR m)) by (rewrite <- abs_IZR; apply IZR_le; lia).
    assert (Q : bpow radix2 (-106) <= (val q - IZR z) * (val q - IZR z)).
    { rewrite Ek. replace (IZR m * bpow radix2 (-53) * (IZR m * bpow radix2 (-53))) with (IZR m * IZR m * (bpow radix2 (-53) * bpow radix2 (-53))) by ring. rewrite <- bpow_plus.
      change (-53 + -53)%Z with (-106)%Z. pose proof (bpow_gt_0 radix2 (-106)). assert (1 <= IZR m * IZR m). { rewrite <- (Rabs_pos_eq (IZR m * IZR m)) by nra. rewrite Rabs_mult. nra. } nra. }
    apply rnd_le in Q. rewrite (rnd_format (bpow radix2 (-106))) in Q by (apply format_bpow; lia). lra.
  - intros [z' E]. assert (Z : z = z'). { unfold z. rewrite E. apply Znearest_imp. rewrite Rminus_eq_0, Rabs_R0. lra. }
    rewrite Z, E, Rminus_eq_0, Rmult_0_l, rnd_0. apply E2.
Qed.

Lemma to_int_floor : forall q, fin q -> 0 <= val q < bpow radix2 60 -> to_int (ffloor q) = Some (Zfloor (val q)).
Proof.
  intros q F [B1 B2]. destruct (ffloor_val q F) as [Ff Ef]. assert (Z : Ztrunc (val (ffloor q)) = Zfloor (val q)) by (rewrite Ef; apply Ztrunc_IZR).
  rewrite <- Z. apply to_int_spec; [exact Ff|]. rewrite Z. assert (0 <= Zfloor (val q))%Z by (apply Zfloor_lub; exact B1).
  assert (Zfloor (val q) < 2 ^ 60)%Z; [|lia]. apply lt_IZR. apply Rle_lt_trans with (val q); [apply Zfloor_lb|]. change (2 ^ 60)%Z with (Zpower radix2 60). rewrite IZR_Zpower by lia. exact B2.
Qed.
Lemma half_val : fin (dbl 1 (-1)) /\ val (dbl 1 (-1)) = / 2.
Proof.
  split; [vm_compute; reflexivity|]. rewrite val_SF. replace (B2SF (dbl 1 (-1))) with (S754_finite false 4503599627370496 (-53)) by (vm_compute; reflexivity).
  unfold SF2R, F2R, cond_Zopp. cbn [Fnum Fexp]. change (bpow radix2 (-53)) with (/ 9007199254740992). lra.
Qed.
Lemma format_half : forall z, (Z.abs z < 2 ^ 53)%Z -> generic_format radix2 fexp64 (IZR z * / 2).
Proof.
  intros z H. rewrite fexp64_FLT. apply generic_format_FLT. exists (Float radix2 z (-1)); [unfold F2R; reflexivity|cbn [Fnum]; change (Zpower radix2 53) with (2 ^ 53)%Z; lia|cbn; lia].
Qed.
Lemma half_integers : forall q r, fin q -> val q = IZR r -> (0 <= r <= 2 ^ 50)%Z -> 
  to_int (ffloor (fsub q (dbl 1 (-1)))) = Some (r - 1)%Z /\ to_int (ffloor (fadd q (dbl 1 (-1)))) = Some r.
Proof.
  intros q r F E B. destruct half_val as [Fh Eh]. assert (B0 : 0 <= IZR r <= bpow radix2 50).
  { split; [apply IZR_le; lia|]. change (bpow radix2 50) with (IZR (2 ^ 50)). apply IZR_le. lia. }
  assert (BB : bpow radix2 50 + 1 <= big). { apply Rle_trans with (bpow radix2 51); [cbn; lra|apply bpow_le; lia]. }
  destruct (sub_rnd q (dbl 1 (-1)) F Fh) as [F1 E1]; [rewrite E, Eh; apply Rabs_le; lra|]. destruct (add_rnd q (dbl 1 (-1)) F Fh) as [F2 E2]; [rewrite E, Eh; apply Rabs_le; lra|].
  rewrite E, Eh in E1, E2.
  rewrite rnd_format in E1 by (replace (IZR r - / 2) with (IZR (2 * r - 1) * / 2) by (rewrite minus_IZR, mult_IZR; lra); apply format_half; lia).
  rewrite rnd_format in E2 by (replace (IZR r + / 2) with (IZR (2 * r + 1) * / 2) by (rewrite plus_IZR, mult_IZR; lra); apply format_half; lia).
  destruct (ffloor_val _ F1) as [G1 V1]. destruct (ffloor_val _ F2) as [G2 V2].
  assert (Z1 : Zfloor (val (fsub q (dbl 1 (-1)))) = (r - 1)%Z) by (apply Zfloor_imp; rewrite E1, !plus_IZR, minus_IZR; lra).
  assert (Z2 : Zfloor (val (fadd q (dbl 1 (-1)))) = r) by (apply Zfloor_imp; rewrite E2, plus_IZR; lra).
  rewrite Z1 in V1. rewrite Z2 in V2.
  split; [rewrite <- (Ztrunc_IZR (r - 1)), <- V1|rewrite <- (Ztrunc_IZR r), <- V2]; (apply to_int_spec; [assumption|]); [rewrite V1|rewrite V2]; rewrite Ztrunc_IZR; lia.
Qed.

Lemma below_n : forall a x, ordinary a -> fin x -> val (fa_anchor a) <= val x <= val (fa_anchor a) + val (fa_size a) * (1 - bpow radix2 (-49)) -> val (fa_absolute a x) < IZR (fa_n a).
Proof.
  intros a x O Fx B. pose proof (n_real a O) as N. pose proof (cell_size_range a O) as C. pose proof (bpow_gt_0 radix2 (-348)). pose proof (bpow_gt_0 radix2 (-49)) as P49.
  assert (S0 : 0 < val (fa_size a)) by (destruct O as (_ & _ & _ & _ & S); pose proof (bpow_gt_0 radix2 (-300)); lra).
  assert (B' : val (fa_anchor a) <= val x <= val (fa_anchor a) + val (fa_size a)) by nra.
  destruct (absolute_err a x O Fx B') as (F & f & t & Hf & Ht & E). apply abs_le in Hf, Ht. pose proof tiny_u as T. pose proof u_pos as P. assert (U : u <= / 100) by (rewrite u_val; lra).
  assert (X : 0 <= exact a (val x) <= IZR (fa_n a) * (1 - 16 * u)).
  { split; [apply (exact_range a (val x) O B')|]. replace (16 * u) with (bpow radix2 (-49)) by (unfold u; change 16 with (bpow radix2 4); rewrite <- bpow_plus; reflexivity). unfold exact. set (h := val (fa_size a) / IZR (fa_n a)) in *.
    assert (Hs : val (fa_size a) = h * IZR (fa_n a)) by (unfold h; field; lra). assert (Q : (val x - val (fa_anchor a)) / h * h = val x - val (fa_anchor a)) by (field; lra).
    apply Rmult_le_reg_r with h; [lra|]. rewrite Q. nra. }
  rewrite E. set (c := exact a (val x)) in *. set (n := IZR (fa_n a)) in *. clearbody c n. clear - X Hf Ht T P U N.
  revert Hf Ht T P U X. generalize u tiny. intros v s Hf Ht T P U X.
  assert (A : c * (1 + f) <= c * (1 + 4 * v)) by (apply Rmult_le_compat_l; lra).
  assert (A2 : c * (1 + 4 * v) <= n * (1 - 16 * v) * (1 + 4 * v)) by (apply Rmult_le_compat_r; lra).
  assert (A3 : n * (1 - 16 * v) * (1 + 4 * v) = n - 12 * (n * v) - 64 * (n * (v * v))) by ring.
  assert (A4 : 0 <= n * (v * v)) by (apply Rmult_le_pos; nra). assert (A5 : 1 * v <= n * v) by (apply Rmult_le_compat_r; lra).
  assert (V2 : v * v <= v * / 100) by (apply Rmult_le_compat_l; lra). lra.
Qed.

Lemma axis_around : forall a x, ordinary a -> fin x -> val (fa_anchor a) <= val x <= val (fa_anchor a) + val (fa_size a) * (1 - bpow radix2 (-49)) ->
  (exists j, to_int (ffloor (fa_absolute a x)) = Some j /\ (0 <= j < fa_n a)%Z /\ near_cell a j x) /\
  (exists l, faxis_indices a x = Some l /\ l <> [] /\ NoDup l /\ forall i, In i l -> (0 <= i < fa_n a)%Z /\ near_cell a i x).
Proof.
  intros a x O Fx B. pose proof (n_real a O) as N. pose proof (bpow_gt_0 radix2 (-49)) as P49.
  assert (S0 : 0 < val (fa_size a)) by (destruct O as (_ & _ & _ & _ & S); pose proof (bpow_gt_0 radix2 (-300)); lra).
  assert (B' : val (fa_anchor a) <= val x <= val (fa_anchor a) + val (fa_size a)) by nra.
  destruct (cell_coordinate_sound a x O Fx B') as (j & _ & J & Nj & T). pose proof (absolute_ge_0 a x O Fx B') as Q0. destruct (absolute_err a x O Fx B') as (Fq & f & t & Hf & Ht & E).
  pose proof (below_n a x O Fx B) as Bn. set (q := fa_absolute a x) in *.
  assert (Ef : Zfloor (val q) = j) by (apply Zfloor_imp; rewrite plus_IZR; exact T).
  assert (Jn : (0 <= j < fa_n a)%Z) by (split; [lia|]; apply lt_IZR; lra).
  assert (Bq : 0 <= val q < bpow radix2 60). { split; [exact Q0|]. apply Rlt_le_trans with (1 := Bn), Rle_trans with (1 := proj2 N), bpow_le. lia. }
  pose proof (to_int_floor q Fq Bq) as Tf. rewrite Ef in Tf.
  split; [exists j; auto|]. unfold faxis_indices, fa_close, fa_rounded. cbv zeta. fold q. destruct (near_integer q) eqn:C.
  - destruct (fround_val q Fq) as [Fr Er].
    assert (K : (ZnearestA (val q) = 0%Z /\ j = 0%Z) \/ (val q = IZR j /\ ZnearestA (val q) = j /\ (1 <= j)%Z)).
    { destruct (Rlt_le_dec (val q) (/ 2)) as [L|L].
      - left. split; [apply Znearest_imp; rewrite Rminus_0_r, Rabs_pos_eq; lra|]. rewrite <- Ef. apply Zfloor_imp. cbn. lra.
      - right. apply near_integer_spec in C; [|exact Fq|rewrite Rabs_pos_eq; lra]. destruct C as [z Ez]. rewrite Ez, Zfloor_IZR in Ef. subst z. split; [exact Ez|].
        split; [rewrite Ez; apply Znearest_imp; rewrite Rminus_eq_0, Rabs_R0; lra|]. assert (0 < j)%Z by (apply lt_IZR; lra). lia. }
    destruct O as (Fa & Fs & Nz & Ra & Rs).
    destruct K as [[Z J0]|(Ez & Z & J1)]; rewrite Z in Er.
    + destruct (half_integers (fround q) 0 Fr Er) as [H1 H2]; [lia|]. rewrite H1, H2. rewrite J0 in Nj. cbn [Z.leb Z.sub Z.add Z.opp Z.compare Pos.compare Pos.compare_cont app].
      destruct (Z.leb_spec 0 (fa_n a - 1)); [|lia]. exists [0%Z]. split; [reflexivity|]. split; [discriminate|]. split; [repeat constructor; intros []|]. intros i [<-|[]]. split; [lia|exact Nj].
    + destruct (half_integers (fround q) j Fr Er) as [H1 H2]; [lia|]. rewrite H1, H2. destruct (Z.leb_spec 0 (j - 1)); [|lia]. destruct (Z.leb_spec j (fa_n a - 1)); [|lia].
      exists [(j - 1)%Z; j]. split; [reflexivity|]. split; [discriminate|]. split; [repeat constructor; [intros [K|[]]; lia|intros []]|]. intros i [<-|[<-|[]]]; [|split; [lia|exact Nj]]. split; [lia|].
      assert (O : ordinary a) by (repeat split; assumption || (try apply Nz) || (try apply Rs)). apply (near_exact a (j - 1) x O). replace (j - 1 + 1)%Z with j by lia. apply near_exact in Nj; [|exact O].
      pose proof (exact_range a (val x) O B') as X. rewrite Ez in E. set (c := exact a (val x)) in *. apply abs_le in Hf, Ht. pose proof tiny_u as Tu. pose proof u_pos as P. assert (U : u <= / 100) by (rewrite u_val; lra).
      assert (J1' : 1 <= IZR j) by (apply IZR_le; exact J1). rewrite minus_IZR. revert E Hf Ht Tu P U J1' Nj. generalize u tiny (IZR j). intros v s r E Hf Ht Tu P U J1' Nj.
      split; [assert (0 <= v * r) by (apply Rmult_le_pos; lra); lra|]. apply Rnot_lt_le. intros K.
      assert (A : c * (1 - 4 * v) <= c * (1 + f)) by (apply Rmult_le_compat_l; lra). apply Rmult_lt_compat_r with (r := 1 - 4 * v) in K; [|lra].
      assert (M : r * (1 + 8 * v) * (1 - 4 * v) = r + 4 * (v * r) - 32 * (v * (v * r))) by ring. assert (M1 : v * 1 <= v * r) by (apply Rmult_le_compat_l; lra).
      assert (M2 : v * (v * r) <= / 100 * (v * r)) by (apply Rmult_le_compat_r; lra).
      assert (V2 : v * v <= v * / 100) by (apply Rmult_le_compat_l; lra). lra.
  - rewrite Tf. destruct (Z.leb_spec 0 j); [|lia]. destruct (Z.leb_spec j (fa_n a - 1)); [|lia]. exists [j]. split; [reflexivity|]. split; [discriminate|]. split; [repeat constructor; intros []|]. intros i [<-|[]]. auto.
Qed.
