(** Proofs about the shape functions with doubles (ShapeFpModel.v). *)

From Coq Require Import ZArith QArith Qreals Reals Lra Lia Psatz List Bool Permutation.
From Coq Require Import SpecFloat.
From Flocq Require Import Core.Core IEEE754.BinarySingleNaN.
From Verif Require Import GridGeoModel ShapeModel FpModel FpProofs GridFpProofs ShapeFpModel.
Import ListNotations.
Open Scope R_scope.

(** ** The formulas are those of ShapeModel.v *)

Lemma real_L : forall e xi, map (real_value xi) (ex_L e) = L e xi.
Proof. intros [] xi; reflexivity. Qed.
Lemma real_dL : forall e xi, map (map (real_value xi)) (ex_dL e) = dL e xi.
Proof. intros [] xi; try reflexivity; cbv -[Rplus Rminus Rmult Rdiv Ropp IZR nth]; repeat (f_equal; try lra). Qed.
Lemma real_nodes : forall e, map (map (fun mk => IZR (fst mk) / IZR (2 ^ snd mk))) (dyadic_nodes e) = canonical_nodes e.
Proof. intros []; cbv -[Rplus Rminus Rmult Rdiv Ropp IZR]; repeat (f_equal; try lra). Qed.

(** ** Constants *)

Lemma dbl_val : forall m k, (Z.abs m < 2 ^ 53)%Z -> (0 <= k <= 100)%Z -> fin (dbl m (- k)) /\ val (dbl m (- k)) = IZR m / IZR (2 ^ k).
Proof.
  intros m k M K. pose proof (binary_normalize_correct 53 1024 _ _ mode_NE m (- k) false) as C. cbv zeta in C. cbn [round_mode] in C.
  assert (P : 0 < IZR (2 ^ k)) by (apply IZR_lt; apply Z.pow_pos_nonneg; lia).
  assert (E : F2R (Float radix2 m (- k)) = IZR m / IZR (2 ^ k)).
  { unfold F2R. cbn [Fnum Fexp]. rewrite bpow_opp. change (2 ^ k)%Z with (Zpower radix2 k). rewrite IZR_Zpower by lia. reflexivity. }
  assert (R1 : round radix2 fexp64 ZnearestE (F2R (Float radix2 m (- k))) = F2R (Float radix2 m (- k))).
  { apply rnd_format. rewrite fexp64_FLT. apply generic_format_FLT. exists (Float radix2 m (- k)); [reflexivity|cbn [Fnum]; change (Zpower radix2 53) with (2 ^ 53)%Z; lia|cbn [Fexp]; lia]. }
  rewrite R1 in C. rewrite Rlt_bool_true in C; [destruct C as (A & B & _); split; [exact B|]; unfold val, dbl; rewrite A; exact E|].
  rewrite E. assert (1 <= IZR (2 ^ k)) by (apply IZR_le; assert (0 < 2 ^ k)%Z by (apply Z.pow_pos_nonneg; lia); lia).
  unfold Rdiv. rewrite Rabs_mult, (Rabs_pos_eq (/ _)) by (apply Rlt_le, Rinv_0_lt_compat; exact P).
  apply Rle_lt_trans with (Rabs (IZR m) * 1). { apply Rmult_le_compat_l; [apply Rabs_pos|]. rewrite <- Rinv_1. apply Rinv_le; lra. }
  rewrite Rmult_1_r, <- abs_IZR. apply Rlt_trans with (IZR (2 ^ 53)); [apply IZR_lt; exact M|]. change (2 ^ 53)%Z with (Zpower radix2 53). rewrite IZR_Zpower by lia. apply bpow_lt. lia.
Qed.

(** ** Error bounds of formulas, for coordinates in [-1, 1] *)

Definition uQ : Q := 1 # 2 ^ 53.
Definition tQ : Q := 1 # 2 ^ 200.
Definition bigQ : Q := inject_Z (2 ^ 100).
Lemma uQ_val : Q2R uQ = u.
Proof. rewrite u_val. unfold Q2R, uQ. cbn. lra. Qed.
Lemma tQ_val : tiny <= Q2R tQ.
Proof.
  replace (Q2R tQ) with (bpow radix2 (-200)); [apply bpow_le; lia|]. unfold Q2R, tQ. cbn [Qnum Qden]. change (Z.pos (2 ^ 200)) with (Zpower radix2 200). rewrite IZR_Zpower by lia.
  rewrite Rmult_1_l, <- bpow_opp. reflexivity.
Qed.
Lemma bigQ_val : Q2R bigQ <= big /\ Q2R bigQ <= bpow radix2 100.
Proof.
  assert (E : Q2R bigQ = bpow radix2 100). { unfold Q2R, bigQ, inject_Z. cbn [Qnum Qden]. change (2 ^ 100)%Z with (Zpower radix2 100). rewrite IZR_Zpower by lia. lra. }
  rewrite E. split; [apply bpow_le; lia|lra].
Qed.

(** Magnitude, error, and whether everything is in range. *)
Fixpoint magnitude (a : ex) : Q :=
  match a with
  | Cst m k => Z.abs m # Z.to_pos (2 ^ k)
  | Var _ => 1
  | Opp a => magnitude a
  | Add a b | Sub a b => Qred (magnitude a + magnitude b)
  | Mul a b => Qred (magnitude a * magnitude b)
  end.
Fixpoint error (a : ex) : Q :=
  match a with
  | Cst _ _ | Var _ => 0
  | Opp a => error a
  | Add a b | Sub a b => let e := (error a + error b)%Q in Qred (e + uQ * (magnitude a + magnitude b + e))
  | Mul a b => let e := (magnitude a * error b + error a * magnitude b + error a * error b)%Q in Qred (e + uQ * (magnitude a * magnitude b + e) + tQ)
  end.
Fixpoint in_range (a : ex) : bool :=
  match a with
  | Cst m k => (Z.abs m <? 2 ^ 53)%Z && (0 <=? k)%Z && (k <=? 100)%Z
  | Var _ => true
  | Opp a => in_range a
  | Add a b | Sub a b => in_range a && in_range b && Qle_bool (magnitude a + magnitude b + (error a + error b)) bigQ
  | Mul a b => in_range a && in_range b && Qle_bool (magnitude a * magnitude b + (magnitude a * error b + error a * magnitude b + error a * error b)) bigQ
  end.

Lemma rnd_abs : forall x, exists e t, Rabs e <= u /\ Rabs t <= tiny /\ rnd x = x * (1 + e) + t.
Proof. intros x. destruct (rnd_err x) as (e & t & A & B & C & _). exists e, t. auto. Qed.
Lemma sum_bound : forall x y a b da db ma mb ea eb, Rabs a <= ma -> Rabs b <= mb -> Rabs (x - a) <= ea -> Rabs (y - b) <= eb -> da = x -> db = y ->
  Rabs (a + b) <= ma + mb /\ Rabs (da + db) <= ma + mb + (ea + eb) /\ Rabs (da + db - (a + b)) <= ea + eb.
Proof.
  intros x y a b da db ma mb ea eb A B C D -> ->. pose proof (abs_le _ _ A). pose proof (abs_le _ _ B). pose proof (abs_le _ _ C). pose proof (abs_le _ _ D).
  repeat split; apply Rabs_le; lra.
Qed.
Lemma prod_bound : forall x y a b ma mb ea eb, Rabs a <= ma -> Rabs b <= mb -> Rabs (x - a) <= ea -> Rabs (y - b) <= eb ->
  Rabs (a * b) <= ma * mb /\ Rabs (x * y) <= ma * mb + (ma * eb + ea * mb + ea * eb) /\ Rabs (x * y - a * b) <= ma * eb + ea * mb + ea * eb.
Proof.
  intros x y a b ma mb ea eb A B C D. pose proof (Rabs_pos a). pose proof (Rabs_pos b). pose proof (Rabs_pos (x - a)). pose proof (Rabs_pos (y - b)).
  assert (P1 : Rabs (a * b) <= ma * mb) by (rewrite Rabs_mult; apply Rmult_le_compat; assumption).
  assert (P2 : Rabs (x * y - a * b) <= ma * eb + ea * mb + ea * eb).
  { replace (x * y - a * b) with (a * (y - b) + (x - a) * b + (x - a) * (y - b)) by ring.
    apply Rle_trans with (1 := Rabs_triang _ _). apply Rplus_le_compat; [|rewrite Rabs_mult; apply Rmult_le_compat; assumption].
    apply Rle_trans with (1 := Rabs_triang _ _). rewrite !Rabs_mult. apply Rplus_le_compat; apply Rmult_le_compat; assumption. }
  split; [exact P1|]. split; [|exact P2]. replace (x * y) with (a * b + (x * y - a * b)) by ring. apply Rle_trans with (1 := Rabs_triang _ _). lra.
Qed.
Lemma rounded_bound : forall x a m e e', Rabs x <= m -> Rabs (x - a) <= e -> (exists d, Rabs d <= u /\ e' = x * (1 + d)) -> Rabs (e' - a) <= e + u * m.
Proof.
  intros x a m e e' X A (d & D & ->). replace (x * (1 + d) - a) with (x - a + x * d) by ring. apply Rle_trans with (1 := Rabs_triang _ _). apply Rplus_le_compat; [exact A|].
  rewrite Rabs_mult, Rmult_comm. apply Rmult_le_compat; try apply Rabs_pos; assumption.
Qed.

Lemma formula_sound : forall xi a, Forall fin xi -> Forall (fun x => Rabs (val x) <= 1) xi -> in_range a = true ->
  fin (double_value xi a) /\ Rabs (real_value (map val xi) a) <= Q2R (magnitude a) /\ Rabs (val (double_value xi a) - real_value (map val xi) a) <= Q2R (error a).
Proof.
  intros xi a F B. destruct (of_int_exact 0) as [F0 E0]; [lia|]. destruct bigQ_val as [Bg _].
  induction a as [m k|i|a IH|a IHa b IHb|a IHa b IHb|a IHa b IHb]; intros R0; cbn [in_range] in R0.
  - apply andb_prop in R0. destruct R0 as [R0 R3]. apply andb_prop in R0. destruct R0 as [R1 R2]. apply Z.ltb_lt in R1. apply Z.leb_le in R2, R3.
    destruct (dbl_val m k R1 (conj R2 R3)) as [Fd Ed]. cbn [double_value real_value magnitude error]. assert (P : (0 < 2 ^ k)%Z) by (apply Z.pow_pos_nonneg; lia).
    assert (E : (if (k =? 0)%Z then IZR m else IZR m / IZR (2 ^ k)) = IZR m / IZR (2 ^ k)) by (destruct (Z.eqb_spec k 0) as [->|_]; [change (2 ^ 0)%Z with 1%Z; lra|reflexivity]).
    rewrite E, Ed. split; [exact Fd|]. split.
    + unfold Q2R. cbn [Qnum Qden]. rewrite Z2Pos.id by exact P. unfold Rdiv. apply IZR_lt in P. rewrite Rabs_mult, <- abs_IZR, (Rabs_pos_eq (/ _)) by (apply Rlt_le, Rinv_0_lt_compat; exact P). lra.
    + rewrite Rminus_eq_0, Rabs_R0. unfold Q2R. cbn. lra.
  - cbn [double_value real_value magnitude error]. replace (nth i (map val xi) 0) with (val (nth i xi (of_int 0))) by (rewrite <- E0; rewrite map_nth; reflexivity).
    rewrite Rminus_eq_0, Rabs_R0. assert (K : fin (nth i xi (of_int 0)) /\ Rabs (val (nth i xi (of_int 0))) <= 1).
    { destruct (Nat.lt_ge_cases i (length xi)) as [Hi|Hi].
      - rewrite Forall_forall in F, B. split; [apply F, nth_In, Hi|apply B, nth_In, Hi].
      - rewrite nth_overflow by exact Hi. split; [exact F0|]. rewrite E0, Rabs_R0. lra. }
    assert (Q1 : Q2R 1 = 1) by (unfold Q2R; cbn; lra). assert (Q0 : Q2R 0 = 0) by (unfold Q2R; cbn; lra). rewrite Q1, Q0.
    split; [apply K|]. split; [apply K|lra].
  - cbn [double_value real_value magnitude error]. destruct (IH R0) as (A & C & D). destruct (fneg_val _ A) as [Fn En]. split; [exact Fn|]. rewrite Rabs_Ropp, En. split; [exact C|].
    replace (- val (double_value xi a) - - real_value (map val xi) a) with (- (val (double_value xi a) - real_value (map val xi) a)) by ring. rewrite Rabs_Ropp. exact D.
  - apply andb_prop in R0. destruct R0 as [R0 R3]. apply andb_prop in R0. destruct R0 as [R1 R2]. apply Qle_bool_iff, Qle_Rle in R3. rewrite !Q2R_plus in R3.
    destruct (IHa R1) as (A1 & A2 & A3). destruct (IHb R2) as (B1 & B2 & B3). cbn [double_value real_value magnitude error]. cbv zeta.
    rewrite !(Qeq_eqR _ _ (Qred_correct _)), !Q2R_plus, Q2R_mult, !Q2R_plus, uQ_val.
    destruct (sum_bound _ _ _ _ _ _ _ _ _ _ A2 B2 A3 B3 eq_refl eq_refl) as (S1 & S2 & S3).
    destruct (add_err _ _ A1 B1 (Rle_trans _ _ _ S2 (Rle_trans _ _ _ R3 Bg))) as (Fs & d & Hd & Es). split; [exact Fs|]. split; [exact S1|].
    apply (rounded_bound _ _ _ _ _ S2 S3). exists d. auto.
  - apply andb_prop in R0. destruct R0 as [R0 R3]. apply andb_prop in R0. destruct R0 as [R1 R2]. apply Qle_bool_iff, Qle_Rle in R3. rewrite !Q2R_plus in R3.
    destruct (IHa R1) as (A1 & A2 & A3). destruct (IHb R2) as (B1 & B2 & B3). cbn [double_value real_value magnitude error]. cbv zeta.
    rewrite !(Qeq_eqR _ _ (Qred_correct _)), !Q2R_plus, Q2R_mult, !Q2R_plus, uQ_val.
    assert (B2' : Rabs (- real_value (map val xi) b) <= Q2R (magnitude b)) by (rewrite Rabs_Ropp; exact B2).
    assert (B3' : Rabs (- val (double_value xi b) - - real_value (map val xi) b) <= Q2R (error b)).
    { replace (- val (double_value xi b) - - real_value (map val xi) b) with (- (val (double_value xi b) - real_value (map val xi) b)) by ring. rewrite Rabs_Ropp. exact B3. }
    destruct (sum_bound _ _ _ _ _ _ _ _ _ _ A2 B2' A3 B3' eq_refl eq_refl) as (S1 & S2 & S3). change (val (double_value xi a) + - val (double_value xi b)) with (val (double_value xi a) - val (double_value xi b)) in S2, S3.
    destruct (sub_err _ _ A1 B1 (Rle_trans _ _ _ S2 (Rle_trans _ _ _ R3 Bg))) as (Fs & d & Hd & Es). split; [exact Fs|]. split; [exact S1|].
    apply (rounded_bound _ _ _ _ _ S2 S3). exists d. auto.
  - apply andb_prop in R0. destruct R0 as [R0 R3]. apply andb_prop in R0. destruct R0 as [R1 R2]. apply Qle_bool_iff, Qle_Rle in R3. rewrite !Q2R_plus, !Q2R_mult in R3.
    destruct (IHa R1) as (A1 & A2 & A3). destruct (IHb R2) as (B1 & B2 & B3). cbn [double_value real_value magnitude error]. cbv zeta.
    rewrite !(Qeq_eqR _ _ (Qred_correct _)), !Q2R_plus, !Q2R_mult, !Q2R_plus, !Q2R_mult, uQ_val.
    destruct (prod_bound _ _ _ _ _ _ _ _ A2 B2 A3 B3) as (S1 & S2 & S3).
    destruct (mul_err _ _ A1 B1 (Rle_trans _ _ _ S2 (Rle_trans _ _ _ R3 Bg))) as (Fs & d & t & Hd & Ht & Es & _). split; [exact Fs|]. split; [exact S1|].
    pose proof (rounded_bound _ _ _ _ (val (double_value xi a) * val (double_value xi b) * (1 + d)) S2 S3 (ex_intro _ d (conj Hd eq_refl))) as K. rewrite Es. pose proof tQ_val.
    apply abs_le in K, Ht. apply Rabs_le. lra.
Qed.

(** ** Bounds of the shape functions *)

Definition checked (a : ex) : bool := in_range a && Qle_bool (magnitude a) 64 && Qle_bool (error a) (1 # 2 ^ 44).
Lemma L_checked : forall e, forallb checked (ex_L e) = true.
Proof. intros []; vm_compute; reflexivity. Qed.
Lemma dL_checked : forall e, forallb (forallb checked) (ex_dL e) = true.
Proof. intros []; vm_compute; reflexivity. Qed.

Definition small (xi : list double) : Prop := Forall (fun x => fin x /\ Rabs (val x) <= 1) xi.
Lemma checked_sound : forall xi a, small xi -> checked a = true ->
  fin (double_value xi a) /\ Rabs (real_value (map val xi) a) <= 64 /\ Rabs (val (double_value xi a) - real_value (map val xi) a) <= / IZR (2 ^ 44).
Proof.
  intros xi a S C. apply andb_prop in C. destruct C as [C C3]. apply andb_prop in C. destruct C as [C1 C2]. apply Qle_bool_iff, Qle_Rle in C2, C3.
  apply Forall_and_inv in S. destruct S as [S1 S2]. destruct (formula_sound xi a S1 S2 C1) as (A & B & D). split; [exact A|].
  replace (Q2R 64) with 64 in C2 by (unfold Q2R; cbn; lra). replace (Q2R (1 # 2 ^ 44)) with (/ IZR (2 ^ 44)) in C3 by (unfold Q2R; cbn; lra). split; eapply Rle_trans; eassumption.
Qed.

Lemma length_fL : forall e xi, length (fL e xi) = NumberOfNodes e.
Proof. intros e xi. unfold fL. rewrite map_length. destruct e; reflexivity. Qed.
Lemma length_exdL : forall e, length (ex_dL e) = NumberOfNodes e.
Proof. intros []; reflexivity. Qed.
Lemma dL_rows : forall e, forallb (fun row => length row =? CanonicalDimension e)%nat (ex_dL e) = true.
Proof. intros []; reflexivity. Qed.
Definition zero_ex : ex := Cst 0 0.
Lemma zero_double : forall xi, fin (double_value xi zero_ex) /\ val (double_value xi zero_ex) = 0.
Proof. intros xi. destruct (dbl_val 0 0) as [A B]; [lia|lia|]. split; [exact A|]. cbn [double_value zero_ex]. rewrite B. change (2 ^ 0)%Z with 1%Z. lra. Qed.
Lemma nth_fL : forall e xi i, (i < NumberOfNodes e)%nat -> nth i (fL e xi) (of_int 0) = double_value xi (nth i (ex_L e) zero_ex).
Proof. intros e xi i H. unfold fL. rewrite (nth_indep _ _ (double_value xi zero_ex)) by (rewrite <- (length_fL e xi) in H; exact H). apply map_nth. Qed.
Lemma nth_L : forall e xi i, nth i (L e xi) 0 = real_value xi (nth i (ex_L e) zero_ex).
Proof. intros e xi i. rewrite <- real_L. change 0 with (real_value xi zero_ex) at 1. apply map_nth. Qed.
Lemma nth_fdL : forall e xi i k, (i < NumberOfNodes e)%nat -> (k < CanonicalDimension e)%nat ->
  nth k (nth i (fdL e xi) []) (of_int 0) = double_value xi (nth k (nth i (ex_dL e) []) zero_ex).
Proof.
  intros e xi i k H K. unfold fdL. change (@nil double) with (map (double_value xi) []) at 1. rewrite map_nth.
  rewrite (nth_indep _ _ (double_value xi zero_ex)); [apply map_nth|]. rewrite map_length.
  pose proof (dL_rows e) as D. rewrite forallb_forall in D. specialize (D (nth i (ex_dL e) [])). rewrite Nat.eqb_eq in D. rewrite D; [exact K|]. apply nth_In. rewrite length_exdL. exact H.
Qed.
Lemma nth_dL : forall e xi i k, nth k (nth i (dL e xi) []) 0 = real_value xi (nth k (nth i (ex_dL e) []) zero_ex).
Proof. intros e xi i k. rewrite <- real_dL. change (@nil R) with (map (real_value xi) []) at 1. rewrite map_nth. change 0 with (real_value xi zero_ex) at 1. apply map_nth. Qed.

Lemma L_sound : forall e xi i, small xi -> (i < NumberOfNodes e)%nat ->
  fin (nth i (fL e xi) (of_int 0)) /\ Rabs (nth i (L e (map val xi)) 0) <= 64 /\ Rabs (val (nth i (fL e xi) (of_int 0)) - nth i (L e (map val xi)) 0) <= / IZR (2 ^ 44).
Proof.
  intros e xi i S H. rewrite nth_L, nth_fL by exact H. apply checked_sound; [exact S|]. pose proof (L_checked e) as C. rewrite forallb_forall in C. apply C, nth_In.
  rewrite <- (length_fL e xi) in H. unfold fL in H. rewrite map_length in H. exact H.
Qed.
Lemma dL_sound : forall e xi i k, small xi -> (i < NumberOfNodes e)%nat -> (k < CanonicalDimension e)%nat ->
  fin (nth k (nth i (fdL e xi) []) (of_int 0)) /\ Rabs (nth k (nth i (dL e (map val xi)) []) 0) <= 64 /\
  Rabs (val (nth k (nth i (fdL e xi) []) (of_int 0)) - nth k (nth i (dL e (map val xi)) []) 0) <= / IZR (2 ^ 44).
Proof.
  intros e xi i k S H K. rewrite nth_dL, nth_fdL by assumption. apply checked_sound; [exact S|]. pose proof (dL_checked e) as C. rewrite forallb_forall in C.
  assert (I : In (nth i (ex_dL e) []) (ex_dL e)) by (apply nth_In; rewrite length_exdL; exact H). specialize (C _ I). rewrite forallb_forall in C. apply C, nth_In.
  pose proof (dL_rows e) as D. rewrite forallb_forall in D. specialize (D _ I). apply Nat.eqb_eq in D. lia.
Qed.
