(** Proofs about sums made in any order with doubles (ShapeFpModel.v). *)

From Coq Require Import ZArith Reals Lra Lia Psatz List Bool Permutation.
From Coq Require Import SpecFloat.
From Flocq Require Import Core.Core IEEE754.BinarySingleNaN.
From Verif Require Import GridGeoModel ShapeModel FpModel FpProofs GridFpProofs ShapeFpModel ShapeFpProofs.
Import ListNotations.
Open Scope R_scope.

(** ** Sums in any order *)

Definition at_terms (r : list R) (t : tree) : R := Rsum (map (fun i => nth i r 0) (terms t)).
Lemma Rsum_app : forall a b, Rsum (a ++ b) = Rsum a + Rsum b.
Proof. induction a as [|x a IH]; intros b; [cbn [app]; change (Rsum []) with 0; lra|]. change (Rsum ((x :: a) ++ b)) with (x + Rsum (a ++ b)). change (Rsum (x :: a)) with (x + Rsum a). rewrite IH. lra. Qed.
Lemma Rsum_cons : forall x a, Rsum (x :: a) = x + Rsum a. Proof. reflexivity. Qed.
Lemma at_plus : forall r a b, at_terms r (Plus a b) = at_terms r a + at_terms r b.
Proof. intros. unfold at_terms. cbn [terms]. rewrite map_app, Rsum_app. reflexivity. Qed.
Lemma Rsum_permutation : forall a b, Permutation a b -> Rsum a = Rsum b.
Proof. intros a b P. induction P; rewrite ?Rsum_cons; lra. Qed.
Lemma map_nth_all : forall (r : list R), map (fun i => nth i r 0) (seq 0 (length r)) = r.
Proof. induction r as [|x r IH]; [reflexivity|]. cbn [length seq map nth]. rewrite <- seq_shift, map_map. f_equal. exact IH. Qed.
Lemma at_all : forall r t, Permutation (terms t) (seq 0 (length r)) -> at_terms r t = Rsum r.
Proof.
  intros r t P. unfold at_terms. rewrite (Rsum_permutation _ (map (fun i => nth i r 0) (seq 0 (length r)))) by (apply Permutation_map; exact P). rewrite map_nth_all. reflexivity.
Qed.
Lemma size_pos : forall t, (1 <= size t)%nat.
Proof. induction t; cbn [size]; lia. Qed.
Definition G (k : nat) : R := (1 + u) ^ k.
Lemma G_ge : forall k, 1 <= G k.
Proof. intros. apply pow_R1_Rle. pose proof u_pos. lra. Qed.
Lemma G_mono : forall i j, (i <= j)%nat -> G i <= G j.
Proof. intros. apply Rle_pow; [pose proof u_pos; lra|assumption]. Qed.
Lemma G_step : forall k, G (S k) = G k * (1 + u). Proof. intros. unfold G. cbn. ring. Qed.
Lemma G_small : forall k, (k <= 1000)%nat -> G k <= 1 + 2 * INR k * u.
Proof.
  induction k as [|k IH]; intros H; [unfold G; cbn; lra|]. rewrite G_step, S_INR. assert (K : INR k <= 1000) by (replace 1000 with (INR 1000) by (rewrite INR_IZR_INZ; reflexivity); apply le_INR; lia).
  pose proof (pos_INR k). pose proof u_pos. assert (U : INR k * u <= 1000 * u) by (apply Rmult_le_compat_r; lra).
  assert (U1 : INR k * u * u <= / 2 * u). { apply Rmult_le_compat_r; [lra|]. apply Rle_trans with (1 := U). rewrite u_val. lra. }
  apply Rle_trans with ((1 + 2 * INR k * u) * (1 + u)); [apply Rmult_le_compat_r; [lra|apply IH; lia]|]. lra.
Qed.

Lemma step_real : forall ka kb g g1 P fa fb sa sb d,
  0 <= ka -> 0 <= kb -> 0 <= P -> 1 <= g -> g1 = g * (1 + u) -> Rabs fa <= ka * P * g -> Rabs fb <= kb * P * g -> Rabs (fa - sa) <= ka * P * (g - 1) -> Rabs (fb - sb) <= kb * P * (g - 1) -> Rabs d <= u ->
  Rabs (fa + fb) <= (ka + kb) * P * g /\ Rabs ((fa + fb) * (1 + d)) <= (ka + kb) * P * g1 /\ Rabs ((fa + fb) * (1 + d) - (sa + sb)) <= (ka + kb) * P * (g1 - 1).
Proof.
  intros ka kb g g1 P fa fb sa sb d Ha Hb HP Hg -> A B C D E. apply abs_le in A, B, C, D. pose proof u_pos.
  assert (S : Rabs (fa + fb) <= (ka + kb) * P * g) by (apply Rabs_le; lra). split; [exact S|].
  assert (X : Rabs ((fa + fb) * d) <= (ka + kb) * P * g * u) by (rewrite Rabs_mult; apply Rmult_le_compat; try apply Rabs_pos; assumption).
  apply abs_le in S, X. split; apply Rabs_le; lra.
Qed.
Lemma fsum_sound : forall l t P, 0 <= P -> (size t <= 1000)%nat -> INR 2000 * P <= big ->
  (forall i, In i (terms t) -> fin (nth i l (of_int 0)) /\ Rabs (val (nth i l (of_int 0))) <= P) ->
  fin (fsum l t) /\ Rabs (val (fsum l t)) <= INR (size t) * P * G (size t) /\
  Rabs (val (fsum l t) - Rsum (map (fun i => val (nth i l (of_int 0))) (terms t))) <= INR (size t) * P * (G (size t) - 1).
Proof.
  intros l t P HP. destruct (of_int_exact 0) as [F0 E0]; [lia|]. induction t as [|i|a IHa b IHb]; intros K Bg T; cbn [fsum size terms] in *.
  - split; [exact F0|]. rewrite E0. cbn [map]. change (Rsum []) with 0. change (INR 1) with 1. rewrite Rminus_0_r, Rabs_R0. pose proof (G_ge 1). split; (apply Rmult_le_pos; [apply Rmult_le_pos; lra|lra]).
  - destruct (T i (or_introl eq_refl)) as [A B]. split; [exact A|]. cbn [map]. rewrite Rsum_cons. change (Rsum []) with 0. change (INR 1) with 1. rewrite Rplus_0_r, Rminus_eq_0, Rabs_R0. pose proof (G_ge 1).
    split; [|apply Rmult_le_pos; [apply Rmult_le_pos; lra|lra]]. apply Rle_trans with (1 := B). rewrite Rmult_1_l. rewrite <- (Rmult_1_r P) at 1. apply Rmult_le_compat_l; lra.
  - pose proof (size_pos a). pose proof (size_pos b). destruct IHa as (A1 & A2 & A3); [lia|exact Bg|intros i Hi; apply T, in_or_app; left; exact Hi|].
    destruct IHb as (B1 & B2 & B3); [lia|exact Bg|intros i Hi; apply T, in_or_app; right; exact Hi|].
    set (n := (size a + size b - 1)%nat). assert (En : (size a + size b = S n)%nat) by (unfold n; lia).
    pose proof (G_mono (size a) n ltac:(unfold n; lia)). pose proof (G_mono (size b) n ltac:(unfold n; lia)). pose proof (pos_INR (size a)). pose proof (pos_INR (size b)).
    assert (W : forall k g, 0 <= k -> g <= G n -> k * P * g <= k * P * G n /\ k * P * (g - 1) <= k * P * (G n - 1)). { intros k g Hk Hg. split; apply Rmult_le_compat_l; try lra; apply Rmult_le_pos; lra. }
    destruct (W (INR (size a)) (G (size a))) as [Wa1 Wa2]; [assumption|assumption|]. destruct (W (INR (size b)) (G (size b))) as [Wb1 Wb2]; [assumption|assumption|].
    pose proof (Rle_trans _ _ _ A2 Wa1) as A2'. pose proof (Rle_trans _ _ _ A3 Wa2) as A3'. pose proof (Rle_trans _ _ _ B2 Wb1) as B2'. pose proof (Rle_trans _ _ _ B3 Wb2) as B3'.
    rewrite map_app, Rsum_app, En, S_INR. assert (Ek : INR (size a) + INR (size b) = INR n + 1) by (rewrite <- plus_INR, En, S_INR; reflexivity).
    assert (Z0 : Rabs (val (fsum l a) + val (fsum l b)) <= big).
    { destruct (step_real (INR (size a)) (INR (size b)) (G n) (G (S n)) P _ _ _ _ 0 ltac:(assumption) ltac:(assumption) HP (G_ge n) (G_step n) A2' B2' A3' B3') as (Q1 & _); [rewrite Rabs_R0; apply Rlt_le, u_pos|].
      apply Rle_trans with (1 := Q1). apply Rle_trans with (2 := Bg). rewrite Ek.
      assert (N1 : INR n + 1 <= 1000) by (rewrite <- S_INR, <- En; replace 1000 with (INR 1000) by (rewrite INR_IZR_INZ; reflexivity); apply le_INR; exact K).
      assert (N2 : G n <= 2). { apply Rle_trans with (1 := G_small n ltac:(unfold n; lia)). assert (INR n * u <= 1000 * u) by (apply Rmult_le_compat_r; [apply Rlt_le, u_pos|pose proof (pos_INR n); lra]). rewrite u_val in *. lra. }
      replace (INR 2000 * P) with (1000 * P * 2) by (replace (INR 2000) with 2000 by (rewrite INR_IZR_INZ; reflexivity); ring).
      apply Rmult_le_compat; [apply Rmult_le_pos; [pose proof (pos_INR n); lra|exact HP]|pose proof (G_ge n); lra|apply Rmult_le_compat_r; lra|exact N2]. }
    destruct (add_err _ _ A1 B1 Z0) as (Fs & d & Hd & Es). split; [exact Fs|]. rewrite Es.
    destruct (step_real (INR (size a)) (INR (size b)) (G n) (G (S n)) P _ _ _ _ d ltac:(assumption) ltac:(assumption) HP (G_ge n) (G_step n) A2' B2' A3' B3' Hd) as (_ & Q2 & Q3). rewrite Ek in Q2, Q3. split; assumption.
Qed.

(** ** Weighted sums *)

Lemma map2_nth : forall (A B C : Type) (f : A -> B -> C) a b i da db dc, (i < length a)%nat -> length a = length b -> nth i (map2 f a b) dc = f (nth i a da) (nth i b db).
Proof.
  intros A B C f. induction a as [|x a IH]; intros [|y b] i da db dc H E; cbn [length] in *; try lia. destruct i as [|i]; [reflexivity|]. cbn [map2 nth]. apply IH; lia.
Qed.
Lemma map2_length : forall (A B C : Type) (f : A -> B -> C) a b, length a = length b -> length (map2 f a b) = length a.
Proof. intros A B C f. induction a as [|x a IH]; intros [|y b] E; cbn [length map2] in *; try lia. rewrite IH; lia. Qed.

Lemma product_sound : forall y s r M, fin y -> fin s -> Rabs (val y) <= M -> bpow radix2 (-900) <= M <= bpow radix2 900 -> Rabs r <= 64 -> Rabs (val s - r) <= / IZR (2 ^ 44) ->
  fin (fmul y s) /\ Rabs (val (fmul y s)) <= 66 * M /\ Rabs (val (fmul y s) - val y * r) <= / IZR (2 ^ 43) * M.
Proof.
  intros y s r M Fy Fs Hy [M1 M2] Hr Hs. assert (M0 : 0 < M) by (pose proof (bpow_gt_0 radix2 (-900)); lra).
  assert (D : Rabs (val s) <= 65). { apply abs_le in Hr, Hs. change (2 ^ 44)%Z with 17592186044416%Z in Hs. apply Rabs_le. lra. }
  assert (P : Rabs (val y * val s) <= 65 * M) by (rewrite Rabs_mult, Rmult_comm; apply Rmult_le_compat; try apply Rabs_pos; assumption).
  assert (Q : Rabs (val y * (val s - r)) <= / IZR (2 ^ 44) * M) by (rewrite Rabs_mult, Rmult_comm; apply Rmult_le_compat; try apply Rabs_pos; assumption).
  assert (T : tiny <= u * M).
  { unfold tiny, u. apply Rle_trans with (bpow radix2 (-53) * bpow radix2 (-900)); [rewrite <- bpow_plus; apply bpow_le; lia|]. apply Rmult_le_compat_l; [apply bpow_ge_0|exact M1]. }
  assert (B : 65 * M <= big).
  { unfold big. apply Rle_trans with (bpow radix2 7 * bpow radix2 900); [|rewrite <- bpow_plus; apply bpow_le; lia]. change (bpow radix2 7) with 128. lra. }
  destruct (mul_err y s Fy Fs (Rle_trans _ _ _ P B)) as (F & d & t & Hd & Ht & E & _). split; [exact F|]. rewrite E.
  assert (X : Rabs (val y * val s * d) <= 65 * M * u) by (rewrite Rabs_mult; apply Rmult_le_compat; try apply Rabs_pos; assumption).
  apply abs_le in P, Q, X, Ht. change (2 ^ 44)%Z with 17592186044416%Z in Q. change (2 ^ 43)%Z with 8796093022208%Z. rewrite u_val in *.
  split; apply Rabs_le; lra.
Qed.

Lemma Rsum_close : forall (l : list nat) (f g : nat -> R) E, 0 <= E -> (forall i, In i l -> Rabs (f i - g i) <= E) -> Rabs (Rsum (map f l) - Rsum (map g l)) <= INR (length l) * E.
Proof.
  intros l f g E HE. induction l as [|i l IH]; intros H; [cbn; rewrite Rminus_0_r, Rabs_R0; lra|]. change (length (i :: l)) with (S (length l)). rewrite S_INR. cbn [map]; rewrite !Rsum_cons.
  specialize (IH (fun j Hj => H j (or_intror Hj))). specialize (H i (or_introl eq_refl)). apply abs_le in IH, H. apply Rabs_le. lra.
Qed.
Lemma terms_size : forall t, (length (terms t) <= size t)%nat.
Proof. induction t; cbn [terms size]; try rewrite app_length; cbn [length]; lia. Qed.

Lemma weighted_sound : forall t values s r M n, length values = n -> length s = n -> length r = n -> Permutation (terms t) (seq 0 n) -> (size t <= 32)%nat ->
  bpow radix2 (-900) <= M <= bpow radix2 900 -> Forall (fun y => fin y /\ Rabs (val y) <= M) values ->
  (forall i, (i < n)%nat -> fin (nth i s (of_int 0)) /\ Rabs (nth i r 0) <= 64 /\ Rabs (val (nth i s (of_int 0)) - nth i r 0) <= / IZR (2 ^ 44)) ->
  fin (fsum (map2 fmul values s) t) /\ Rabs (val (fsum (map2 fmul values s) t) - Rsum (map2 Rmult (map val values) r)) <= / IZR (2 ^ 35) * M.
Proof.
  intros t values s r M n Lv Ls Lr Pm Sz HM Hv Hs. assert (M0 : 0 < M) by (pose proof (bpow_gt_0 radix2 (-900)); lra).
  assert (Q : forall i, (i < n)%nat -> fin (nth i (map2 fmul values s) (of_int 0)) /\ Rabs (val (nth i (map2 fmul values s) (of_int 0))) <= 66 * M /\ Rabs (val (nth i (map2 fmul values s) (of_int 0)) - nth i (map2 Rmult (map val values) r) 0) <= / IZR (2 ^ 43) * M).
  { intros i Hi. rewrite (map2_nth _ _ _ fmul values s i (of_int 0) (of_int 0)) by lia. rewrite (map2_nth _ _ _ Rmult (map val values) r i (val (of_int 0)) 0) by (rewrite map_length; lia). rewrite map_nth.
    rewrite Forall_forall in Hv. destruct (Hv (nth i values (of_int 0))) as [V1 V2]; [apply nth_In; lia|]. destruct (Hs i Hi) as (A & B & C). apply product_sound; assumption. }
  assert (I : forall i, In i (terms t) -> (i < n)%nat) by (intros i Hi; apply (Permutation_in _ Pm), in_seq in Hi; lia).
  assert (B : INR 2000 * (66 * M) <= big).
  { replace (INR 2000) with 2000 by (rewrite INR_IZR_INZ; reflexivity). apply Rle_trans with (bpow radix2 20 * bpow radix2 900); [|unfold big; rewrite <- bpow_plus; apply bpow_le; lia]. change (bpow radix2 20) with 1048576. lra. }
  destruct (fsum_sound (map2 fmul values s) t (66 * M) ltac:(lra) ltac:(lia) B) as (F & _ & E); [intros i Hi; destruct (Q i (I i Hi)) as (A1 & A2 & _); split; assumption|].
  split; [exact F|].
  assert (C : Rabs (Rsum (map (fun i => val (nth i (map2 fmul values s) (of_int 0))) (terms t)) - at_terms (map2 Rmult (map val values) r) t) <= INR (length (terms t)) * (/ IZR (2 ^ 43) * M)).
  { apply Rsum_close; [change (2 ^ 43)%Z with 8796093022208%Z; lra|]. intros i Hi. apply (Q i (I i Hi)). }
  rewrite at_all in C by (rewrite map2_length by (rewrite map_length; lia); rewrite map_length, Lv; exact Pm).
  assert (N : INR (length (terms t)) <= 32) by (replace 32 with (INR 32) by (rewrite INR_IZR_INZ; reflexivity); apply le_INR; pose proof (terms_size t); lia).
  assert (N2 : INR (size t) <= 32) by (replace 32 with (INR 32) by (rewrite INR_IZR_INZ; reflexivity); apply le_INR; lia).
  assert (GG : G (size t) - 1 <= 64 * u). { pose proof (G_small (size t) ltac:(lia)). pose proof u_pos. assert (INR (size t) * u <= 32 * u) by (apply Rmult_le_compat_r; lra). lra. }
  assert (E2 : INR (size t) * (66 * M) * (G (size t) - 1) <= 32 * (66 * M) * (64 * u)).
  { pose proof (pos_INR (size t)). pose proof (G_ge (size t)). apply Rmult_le_compat; [apply Rmult_le_pos; lra|lra|apply Rmult_le_compat_r; lra|exact GG]. }
  assert (C2 : INR (length (terms t)) * (/ IZR (2 ^ 43) * M) <= 32 * (/ IZR (2 ^ 43) * M)) by (apply Rmult_le_compat_r; [change (2 ^ 43)%Z with 8796093022208%Z; lra|exact N]).
  pose proof (Rle_trans _ _ _ E E2) as E'. pose proof (Rle_trans _ _ _ C C2) as C'. apply abs_le in E', C'.
  change (2 ^ 43)%Z with 8796093022208%Z in C'. change (2 ^ 35)%Z with 34359738368%Z. rewrite u_val in E'. apply Rabs_le. lra.
Qed.

(** ** At the nodes *)

Definition zero_one (b : bool) (x : double) : bool :=
  match B2SF x with
  | S754_zero _ => negb b
  | S754_finite false m e => b && (m =? 2 ^ 52)%positive && (e =? - 52)%Z
  | _ => false
  end.
Lemma zero_one_sound : forall b x, zero_one b x = true -> fin x /\ val x = if b then 1 else 0.
Proof.
  intros b x H. unfold zero_one in H. unfold fin, val. destruct x as [s|s| |s m e Hb]; cbn [B2SF] in H; try discriminate H.
  - destruct b; [discriminate H|]. split; reflexivity.
  - destruct s; [discriminate H|]. apply andb_prop in H. destruct H as [H He]. apply andb_prop in H. destruct H as [Hb' Hm]. apply Pos.eqb_eq in Hm. apply Z.eqb_eq in He. subst.
    split; [reflexivity|]. cbn [B2R]. unfold F2R. cbn [Fnum Fexp cond_Zopp]. change (Z.pos (2 ^ 52)) with (Zpower radix2 52). rewrite IZR_Zpower by lia. rewrite <- bpow_plus. reflexivity.
Qed.
Lemma nodes_checked : forall e, forallb (fun j => let l := fL e (nth j (fcanonical_nodes e) []) in forallb (fun i => zero_one (i =? j)%nat (nth i l (of_int 0))) (seq 0 (NumberOfNodes e))) (seq 0 (NumberOfNodes e)) = true.
Proof. intros []; vm_compute; reflexivity. Qed.
Lemma node_sound : forall e i j, (i < NumberOfNodes e)%nat -> (j < NumberOfNodes e)%nat ->
  fin (nth i (fL e (nth j (fcanonical_nodes e) [])) (of_int 0)) /\ val (nth i (fL e (nth j (fcanonical_nodes e) [])) (of_int 0)) = if (i =? j)%nat then 1 else 0.
Proof.
  intros e i j Hi Hj. apply zero_one_sound. pose proof (nodes_checked e) as C. rewrite forallb_forall in C. specialize (C j). cbv zeta in C. rewrite forallb_forall in C. apply C; apply in_seq; lia.
Qed.

Lemma NoDup_parts : forall (a b : list nat), NoDup (a ++ b) -> NoDup a /\ NoDup b.
Proof.
  induction a as [|x a IH]; intros b N; [split; [constructor|exact N]|]. cbn [app] in N. apply NoDup_cons_iff in N. destruct N as [N1 N2]. destruct (IH b N2) as [A B].
  split; [|exact B]. constructor; [|exact A]. intros I. apply N1, in_or_app. left. exact I.
Qed.
Lemma fsum_single : forall l t j, NoDup (terms t) -> (forall i, In i (terms t) -> fin (nth i l (of_int 0)) /\ (i <> j -> val (nth i l (of_int 0)) = 0)) -> Rabs (val (nth j l (of_int 0))) <= big ->
  fin (fsum l t) /\ val (fsum l t) = if in_dec Nat.eq_dec j (terms t) then val (nth j l (of_int 0)) else 0.
Proof.
  intros l t j N T Bj. destruct (of_int_exact 0) as [F0 E0]; [lia|]. assert (B0 : 0 <= big) by apply bpow_ge_0. induction t as [|i|a IHa b IHb]; cbn [terms fsum] in *.
  - split; [exact F0|]. exact E0.
  - destruct (T i (or_introl eq_refl)) as [A B]. split; [exact A|]. destruct (in_dec Nat.eq_dec j [i]) as [I|I].
    + destruct I as [->|[]]. reflexivity.
    + apply B. intros ->. apply I. left. reflexivity.
  - destruct (NoDup_parts _ _ N) as [Na Nb].
    destruct (IHa Na (fun i Hi => T i (in_or_app _ _ _ (or_introl Hi)))) as [A1 A2]. destruct (IHb Nb (fun i Hi => T i (in_or_app _ _ _ (or_intror Hi)))) as [B1 B2].
    assert (D : ~ (In j (terms a) /\ In j (terms b))).
    { intros [Ja Jb]. clear - N Ja Jb. induction (terms a) as [|x r IH]; [destruct Ja|]. cbn [app] in N. apply NoDup_cons_iff in N. destruct N as [N1 N2]. destruct Ja as [->|Ja]; [apply N1, in_or_app; right; exact Jb|exact (IH N2 Ja)]. }
    assert (E : val (fsum l a) + val (fsum l b) = if in_dec Nat.eq_dec j (terms a ++ terms b) then val (nth j l (of_int 0)) else 0).
    { rewrite A2, B2. destruct (in_dec Nat.eq_dec j (terms a)) as [Ia|Ia], (in_dec Nat.eq_dec j (terms b)) as [Ib|Ib], (in_dec Nat.eq_dec j (terms a ++ terms b)) as [Iab|Iab]; try lra; exfalso; try tauto;
      try (apply Iab, in_or_app; tauto); apply in_app_or in Iab; tauto. }
    assert (Fm : generic_format radix2 fexp64 (val (fsum l a) + val (fsum l b))). { rewrite E. destruct (in_dec Nat.eq_dec j (terms a ++ terms b)); [apply format_val|apply generic_format_0]. }
    assert (Bs : Rabs (val (fsum l a) + val (fsum l b)) <= big). { rewrite E. destruct (in_dec Nat.eq_dec j (terms a ++ terms b)); [exact Bj|rewrite Rabs_R0; exact B0]. }
    destruct (add_rnd _ _ A1 B1 Bs) as [F R1]. split; [exact F|]. rewrite R1, rnd_format by exact Fm. exact E.
Qed.

(** ** The sign of the linear shape functions *)

Fixpoint tensor (a : ex) : bool :=
  match a with
  | Cst m _ => (0 <=? m)%Z
  | Add (Cst 1 0) (Var _) | Sub (Cst 1 0) (Var _) => true
  | Mul a b => tensor a && tensor b
  | _ => false
  end.
Lemma one_dbl : fin (dbl 1 (- 0)) /\ val (dbl 1 (- 0)) = 1.
Proof. destruct (dbl_val 1 0) as [A B]; [lia|lia|]. split; [exact A|]. rewrite B. change (2 ^ 0)%Z with 1%Z. lra. Qed.
Lemma var_small : forall xi i, small xi -> fin (nth i xi (of_int 0)) /\ Rabs (val (nth i xi (of_int 0))) <= 1.
Proof.
  intros xi i S. destruct (Nat.lt_ge_cases i (length xi)) as [Hi|Hi]; [exact (proj1 (Forall_forall _ _) S _ (nth_In _ _ Hi))|].
  destruct (of_int_exact 0) as [F0 E0]; [lia|]. rewrite nth_overflow by exact Hi. rewrite E0, Rabs_R0. split; [exact F0|lra].
Qed.
Lemma small_big : forall x, Rabs x <= 2 -> Rabs x <= big.
Proof. intros x H. apply Rle_trans with (1 := H). change 2 with (bpow radix2 1). apply bpow_le. lia. Qed.
Lemma one_plus_var : forall xi i, small xi -> 0 <= val (fadd (dbl 1 (- 0)) (nth i xi (of_int 0))) /\ 0 <= val (fsub (dbl 1 (- 0)) (nth i xi (of_int 0))).
Proof.
  intros xi i S. destruct one_dbl as [F1 E1]. destruct (var_small xi i S) as [F B]. apply abs_le in B.
  destruct (add_rnd _ _ F1 F) as [_ A]; [apply small_big; rewrite E1; apply Rabs_le; lra|]. destruct (sub_rnd _ _ F1 F) as [_ C]; [apply small_big; rewrite E1; apply Rabs_le; lra|].
  rewrite A, C, E1. split; apply rnd_ge_0; lra.
Qed.
Lemma tensor_sound : forall xi a, small xi -> tensor a = true -> in_range a = true -> 0 <= val (double_value xi a).
Proof.
  intros xi a S T R0. assert (S' := S). apply Forall_and_inv in S'. destruct S' as [S1 S2].
  induction a as [m k|i|a IH|a IHa b IHb|a IHa b IHb|a IHa b IHb]; cbn [tensor] in T; try discriminate T.
  - cbn [in_range] in R0. apply andb_prop in R0. destruct R0 as [R0 R3]. apply andb_prop in R0. destruct R0 as [R1 R2]. apply Z.ltb_lt in R1. apply Z.leb_le in R2, R3, T.
    destruct (dbl_val m k R1 (conj R2 R3)) as [_ E]. cbn [double_value]. rewrite E. apply Rmult_le_pos; [apply IZR_le; exact T|]. apply Rlt_le, Rinv_0_lt_compat, IZR_lt, Z.pow_pos_nonneg; lia.
  - destruct a as [[|[| |]|] [| |]| | | | |]; try discriminate T. destruct b; try discriminate T. cbn [double_value]. apply one_plus_var, S.
  - destruct a as [[|[| |]|] [| |]| | | | |]; try discriminate T. destruct b; try discriminate T. cbn [double_value]. apply one_plus_var, S.
  - apply andb_prop in T. destruct T as [Ta Tb]. pose proof R0 as R0'. cbn [in_range] in R0. apply andb_prop in R0. destruct R0 as [R0 R3]. apply andb_prop in R0. destruct R0 as [R1 R2].
    destruct (formula_sound xi a S1 S2 R1) as (A1 & A2 & A3). destruct (formula_sound xi b S1 S2 R2) as (B1 & B2 & B3). apply QArith_base.Qle_bool_iff, Qreals.Qle_Rle in R3. rewrite !Qreals.Q2R_plus, !Qreals.Q2R_mult in R3.
    destruct (prod_bound _ _ _ _ _ _ _ _ A2 B2 A3 B3) as (_ & P2 & _). destruct bigQ_val as [Bg _].
    destruct (mul_rnd _ _ A1 B1 (Rle_trans _ _ _ P2 (Rle_trans _ _ _ R3 Bg))) as [_ E]. cbn [double_value]. rewrite E. apply rnd_ge_0, Rmult_le_pos; [exact (IHa Ta R1)|exact (IHb Tb R2)].
Qed.
