(** Rounding errors of the conjugate gradient on doubles. *)

From Coq Require Import ZArith Reals Lra Lia Psatz List Bool Permutation.
From Coq Require Import SpecFloat.
From Flocq Require Import Core.Core IEEE754.BinarySingleNaN.
From Verif Require Import GridGeoModel ShapeModel FpModel FpProofs GridFpProofs ShapeFpModel ShapeFpSumProofs CGFpModel CGFpSpec.
Import ListNotations.
Open Scope R_scope.

(** ** A finite result comes from finite operands and is the rounded exact result *)
Lemma add_inv : forall x y, fin (fadd x y) -> fin x /\ fin y /\ val (fadd x y) = rnd (val x + val y).
Proof.
  intros x y H. assert (F : fin x /\ fin y).
  { destruct x as [s|s| |s m e p], y as [s'|s'| |s' m' e' p']; try (split; reflexivity); try discriminate H. exfalso. destruct s, s'; discriminate H. }
  destruct F as [Fx Fy]. split; [exact Fx|]. split; [exact Fy|]. pose proof (Bplus_correct 53 1024 _ _ mode_NE x y Fx Fy) as C. cbn [round_mode] in C.
  destruct Rlt_bool; [exact (proj1 C)|]. exfalso. destruct C as [C _]. unfold fin, fadd in H. rewrite <- is_finite_SF_B2SF, C in H. discriminate H.
Qed.
Lemma sub_inv : forall x y, fin (fsub x y) -> fin x /\ fin y /\ val (fsub x y) = rnd (val x - val y).
Proof.
  intros x y H. assert (F : fin x /\ fin y).
  { destruct x as [s|s| |s m e p], y as [s'|s'| |s' m' e' p']; try (split; reflexivity); try discriminate H. exfalso. destruct s, s'; discriminate H. }
  destruct F as [Fx Fy]. split; [exact Fx|]. split; [exact Fy|]. pose proof (Bminus_correct 53 1024 _ _ mode_NE x y Fx Fy) as C. cbn [round_mode] in C.
  destruct Rlt_bool; [exact (proj1 C)|]. exfalso. destruct C as [C _]. unfold fin, fsub in H. rewrite <- is_finite_SF_B2SF, C in H. discriminate H.
Qed.
Lemma mul_inv : forall x y, fin (fmul x y) -> fin x /\ fin y /\ val (fmul x y) = rnd (val x * val y).
Proof.
  intros x y H. assert (F : fin x /\ fin y).
  { destruct x as [s|s| |s m e p], y as [s'|s'| |s' m' e' p']; try (split; reflexivity); discriminate H. }
  destruct F as [Fx Fy]. split; [exact Fx|]. split; [exact Fy|]. pose proof (Bmult_correct 53 1024 _ _ mode_NE x y) as C. cbn [round_mode] in C.
  destruct Rlt_bool; [exact (proj1 C)|]. exfalso. unfold fin, fmul in H. rewrite <- is_finite_SF_B2SF, C in H. discriminate H.
Qed.
Lemma neg_inv : forall x, fin (fneg x) -> fin x /\ val (fneg x) = - val x.
Proof. intros x H. assert (F : fin x) by (destruct x; try reflexivity; discriminate H). split; [exact F|apply fneg_val, F]. Qed.

Lemma add_inv_err : forall x y, fin (fadd x y) -> fin x /\ fin y /\ exists e, Rabs e <= u /\ val (fadd x y) = (val x + val y) * (1 + e).
Proof.
  intros x y H. destruct (add_inv x y H) as (A & B & C). split; [exact A|]. split; [exact B|].
  destruct (rnd_plus_err (val x) (val y) (format_val x) (format_val y)) as (e & D & E). exists e. split; [exact D|]. rewrite C. exact E.
Qed.
Lemma sub_inv_err : forall x y, fin (fsub x y) -> fin x /\ fin y /\ exists e, Rabs e <= u /\ val (fsub x y) = (val x - val y) * (1 + e).
Proof.
  intros x y H. destruct (sub_inv x y H) as (A & B & C). split; [exact A|]. split; [exact B|].
  destruct (rnd_plus_err (val x) (- val y) (format_val x)) as (e & D & E); [apply generic_format_opp, format_val|]. exists e. split; [exact D|]. rewrite C. exact E.
Qed.
Lemma mul_inv_err : forall x y, fin (fmul x y) -> fin x /\ fin y /\ Rabs (val (fmul x y) - val x * val y) <= u * Rabs (val x * val y) + tiny.
Proof.
  intros x y H. destruct (mul_inv x y H) as (A & B & C). split; [exact A|]. split; [exact B|].
  destruct (rnd_err (val x * val y)) as (e & t & D & E & F & _). rewrite C, F.
  replace (val x * val y * (1 + e) + t - val x * val y) with (e * (val x * val y) + t) by ring.
  apply Rle_trans with (1 := Rabs_triang _ _). rewrite Rabs_mult. apply Rplus_le_compat; [|exact E]. apply Rmult_le_compat_r; [apply Rabs_pos|exact D].
Qed.

(** ** Sums *)
Lemma G_near : forall k, INR k * u <= / 2 -> G k <= 1 + 2 * INR k * u.
Proof.
  pose proof u_pos as U. induction k as [|k IH]; intros H; [unfold G; cbn; lra|]. rewrite S_INR in *. pose proof (pos_INR k).
  assert (K : INR k * u <= / 2) by lra. specialize (IH K). rewrite G_step.
  assert (U1 : INR k * u * u <= / 2 * u) by (apply Rmult_le_compat_r; lra).
  apply Rle_trans with ((1 + 2 * INR k * u) * (1 + u)); [apply Rmult_le_compat_r; lra|]. lra.
Qed.

Definition Rterms (l : list double) (t : tree) : R := Rsum (map (fun i => val (nth i l (of_int 0))) (terms t)).
Definition Aterms (l : list double) (t : tree) : R := Rsum (map (fun i => Rabs (val (nth i l (of_int 0)))) (terms t)).
Lemma Aterms_pos : forall l t, 0 <= Aterms l t.
Proof. intros l t. unfold Aterms. induction (terms t) as [|i s IH]; [apply Rle_refl|]. cbn [map]. rewrite Rsum_cons. pose proof (Rabs_pos (val (nth i l (of_int 0)))). lra. Qed.
Lemma Rterms_le : forall l t, Rabs (Rterms l t) <= Aterms l t.
Proof.
  intros l t. unfold Rterms, Aterms. induction (terms t) as [|i s IH]; [change (Rabs 0 <= 0); rewrite Rabs_R0; apply Rle_refl|]. cbn [map]. rewrite !Rsum_cons. apply Rle_trans with (1 := Rabs_triang _ _). lra.
Qed.

Lemma fsum_inv : forall l t, fin (fsum l t) ->
  (forall i, In i (terms t) -> fin (nth i l (of_int 0))) /\ Rabs (val (fsum l t) - Rterms l t) <= (G (size t) - 1) * Aterms l t.
Proof.
  intros l t. pose proof u_pos as U. destruct (of_int_exact 0) as [F0 E0]; [lia|]. induction t as [|i|a IHa b IHb]; intros H; cbn [fsum] in *.
  - split; [intros i []|]. rewrite E0. unfold Rterms, Aterms. cbn [terms map size]. change (Rsum []) with 0. rewrite Rminus_0_r, Rabs_R0, Rmult_0_r. lra.
  - split; [intros j [ <- | [] ]; exact H|]. unfold Rterms, Aterms. cbn [terms map size]. rewrite !Rsum_cons. change (Rsum []) with 0. rewrite !Rplus_0_r, Rminus_eq_0, Rabs_R0.
    apply Rmult_le_pos; [pose proof (G_ge 1); lra|apply Rabs_pos].
  - destruct (add_inv_err _ _ H) as (Fa & Fb & e & He & Ev). destruct (IHa Fa) as [A1 A2]. destruct (IHb Fb) as [B1 B2]. split.
    + intros i Hi. cbn [terms] in Hi. apply in_app_or in Hi. destruct Hi; [apply A1|apply B1]; assumption.
    + unfold Rterms at 1, Aterms at 1. cbn [terms size]. rewrite !map_app, !Rsum_app. fold (Rterms l a) (Rterms l b) (Aterms l a) (Aterms l b). rewrite Ev.
      pose proof (Aterms_pos l a) as Pa. pose proof (Aterms_pos l b) as Pb. pose proof (Rterms_le l a) as La. pose proof (Rterms_le l b) as Lb.
      pose proof (size_pos a). pose proof (size_pos b). set (n := (size a + size b)%nat) in *.
      assert (Ga : G (size a) * (1 + u) <= G n) by (rewrite <- G_step; apply G_mono; unfold n; lia). assert (Gb : G (size b) * (1 + u) <= G n) by (rewrite <- G_step; apply G_mono; unfold n; lia).
      set (fa := val (fsum l a)) in *. set (fb := val (fsum l b)) in *. set (ra := Rterms l a) in *. set (rb := Rterms l b) in *. set (sa := Aterms l a) in *. set (sb := Aterms l b) in *. set (ga := G (size a)) in *. set (gb := G (size b)) in *.
      assert (Xa : Rabs fa <= ga * sa) by (replace fa with ((fa - ra) + ra) by ring; apply Rle_trans with (1 := Rabs_triang _ _); lra).
      assert (Xb : Rabs fb <= gb * sb) by (replace fb with ((fb - rb) + rb) by ring; apply Rle_trans with (1 := Rabs_triang _ _); lra).
      assert (Xe : Rabs ((fa + fb) * e) <= (ga * sa + gb * sb) * u). { rewrite Rabs_mult. apply Rmult_le_compat; try apply Rabs_pos; [|exact He]. apply Rle_trans with (1 := Rabs_triang _ _). lra. }
      assert (Ta : ga * (1 + u) * sa <= G n * sa) by (apply Rmult_le_compat_r; assumption). assert (Tb : gb * (1 + u) * sb <= G n * sb) by (apply Rmult_le_compat_r; assumption).
      apply abs_le in A2, B2, Xe. apply Rabs_le. lra.
Qed.

(** [l] added up in an order that uses each term once, with at most [w] leaves. *)
Lemma sum_order_inv : forall w l t, INR w * u <= / 2 -> sum_order w (length l) t -> fin (fsum l t) ->
  Forall fin l /\ (length l <= w)%nat /\ Rabs (val (fsum l t) - Rsum (map val l)) <= 2 * INR w * u * Rsum (map (fun x => Rabs (val x)) l).
Proof.
  intros w l t W [P Sz] H. destruct (fsum_inv l t H) as [F E]. split.
  - apply Forall_forall. intros x Hx. destruct (In_nth l x (of_int 0) Hx) as (i & Hi & <-). apply F. apply (Permutation_in i (Permutation_sym P)), in_seq. lia.
  - split. { pose proof (terms_size t). rewrite (Permutation_length P), seq_length in H0. lia. }
    assert (R1 : Rterms l t = Rsum (map val l)).
    { unfold Rterms. rewrite (Rsum_permutation _ (map (fun i => val (nth i l (of_int 0))) (seq 0 (length l)))) by (apply Permutation_map; exact P). f_equal.
      rewrite <- (map_length val l) at 1. rewrite <- (map_nth_all (map val l)) at 2. apply map_ext_in. intros i Hi. apply in_seq in Hi. rewrite (nth_indep _ 0 (val (of_int 0))) by lia. symmetry. apply map_nth. }
    assert (R2 : Aterms l t = Rsum (map (fun x => Rabs (val x)) l)).
    { unfold Aterms. rewrite (Rsum_permutation _ (map (fun i => Rabs (val (nth i l (of_int 0)))) (seq 0 (length l)))) by (apply Permutation_map; exact P). f_equal.
      rewrite <- (map_length (fun x => Rabs (val x)) l) at 1. rewrite <- (map_nth_all (map (fun x => Rabs (val x)) l)) at 2. apply map_ext_in. intros i Hi. apply in_seq in Hi. rewrite (nth_indep _ 0 (Rabs (val (of_int 0)))) by lia. symmetry. apply (map_nth (fun x => Rabs (val x))). }
    rewrite R1, R2 in E. apply Rle_trans with (1 := E). pose proof (Aterms_pos l t) as Q. rewrite R2 in Q. apply Rmult_le_compat_r; [exact Q|].
    pose proof (le_INR _ _ Sz). pose proof u_pos. assert (INR (size t) * u <= INR w * u) by (apply Rmult_le_compat_r; lra). pose proof (G_near (size t) ltac:(lra)). lra.
Qed.

(** ** Sums of products *)
Definition pairs_product (l : list (double * double)) : list double := map (fun c => fmul (fst c) (snd c)) l.
Definition Rpairs (l : list (double * double)) : R := Rsum (map (fun c => val (fst c) * val (snd c)) l).
Definition Apairs (l : list (double * double)) : R := Rsum (map (fun c => Rabs (val (fst c) * val (snd c))) l).
Lemma Apairs_pos : forall l, 0 <= Apairs l.
Proof. induction l as [|c l IH]; [apply Rle_refl|]. unfold Apairs in *. cbn [map]. rewrite Rsum_cons. pose proof (Rabs_pos (val (fst c) * val (snd c))). lra. Qed.
Lemma pairs_err : forall l, Forall fin (pairs_product l) ->
  Forall (fun c => fin (fst c) /\ fin (snd c)) l /\ Rabs (Rsum (map val (pairs_product l)) - Rpairs l) <= u * Apairs l + INR (length l) * tiny /\
  Rsum (map (fun x => Rabs (val x)) (pairs_product l)) <= (1 + u) * Apairs l + INR (length l) * tiny.
Proof.
  induction l as [|c l IH]; intros H.
  - split; [constructor|]. unfold Rpairs, Apairs. cbn [pairs_product map length]. change (Rsum []) with 0. change (INR 0) with 0. rewrite Rminus_0_r, Rabs_R0. lra.
  - cbn [pairs_product map] in H. apply Forall_cons_iff in H. destruct H as [H1 H2]. destruct (IH H2) as (I1 & I2 & I3). destruct (mul_inv_err _ _ H1) as (M1 & M2 & M3).
    split; [constructor; [split; assumption|exact I1]|]. unfold Rpairs, Apairs. cbn [pairs_product map length]. fold (pairs_product l). rewrite !Rsum_cons. fold (Rpairs l) (Apairs l). rewrite S_INR.
    pose proof (Rabs_pos (val (fst c) * val (snd c))). split.
    + apply abs_le in I2, M3. apply Rabs_le. lra.
    + assert (Rabs (val (fmul (fst c) (snd c))) <= (1 + u) * Rabs (val (fst c) * val (snd c)) + tiny); [|lra].
      replace (val (fmul (fst c) (snd c))) with ((val (fmul (fst c) (snd c)) - val (fst c) * val (snd c)) + val (fst c) * val (snd c)) by ring. apply Rle_trans with (1 := Rabs_triang _ _). lra.
Qed.

Section Width.
Variable w : nat.
Hypothesis W : INR w * u <= / 16.
Lemma u_tiny : u <= / 16. Proof. rewrite u_val. lra. Qed.
(** The error of an exact value [s] summed in two stages. *)
Lemma two_stages : forall f g s p n, (n <= w)%nat -> 0 <= p -> Rabs (g - s) <= u * p + INR n * tiny -> Rabs (f - g) <= 2 * INR w * u * ((1 + u) * p + INR n * tiny) ->
  Rabs (f - s) <= (2 * INR w + 2) * u * p + 2 * INR w * tiny.
Proof.
  intros f g s p n Hn Hp A B. pose proof u_pos as U. pose proof u_tiny. pose proof tiny_pos as T. pose proof (le_INR _ _ Hn) as Hn'. pose proof (pos_INR n). pose proof (pos_INR w).
  assert (T1 : INR n * tiny <= INR w * tiny) by (apply Rmult_le_compat_r; lra). assert (T0 : 0 <= INR n * tiny) by (apply Rmult_le_pos; lra).
  assert (P1 : INR w * u * (u * p) <= / 16 * (u * p)) by (apply Rmult_le_compat_r; [apply Rmult_le_pos; lra|exact W]).
  assert (P2 : INR w * u * (INR n * tiny) <= / 16 * (INR n * tiny)) by (apply Rmult_le_compat_r; assumption).
  assert (P3 : 0 <= u * p) by (apply Rmult_le_pos; lra).
  apply abs_le in A, B. apply Rabs_le. lra.
Qed.
Lemma sum_products_inv : forall l t, sum_order w (length l) t -> fin (fsum (pairs_product l) t) ->
  Forall (fun c => fin (fst c) /\ fin (snd c)) l /\ (length l <= w)%nat /\ Rabs (val (fsum (pairs_product l) t) - Rpairs l) <= (2 * INR w + 2) * u * Apairs l + 2 * INR w * tiny.
Proof.
  intros l t O H. assert (L : length (pairs_product l) = length l) by apply map_length. rewrite <- L in O. destruct (sum_order_inv w _ t ltac:(lra) O H) as (A & B & C).
  destruct (pairs_err l A) as (D & E & F). rewrite L in B. split; [exact D|]. split; [exact B|].
  apply (two_stages _ (Rsum (map val (pairs_product l))) _ _ (length l) B (Apairs_pos l) E). apply Rle_trans with (1 := C). apply Rmult_le_compat_l; [|exact F]. pose proof u_pos. pose proof (pos_INR w). apply Rmult_le_pos; lra.
Qed.
Lemma sum_residual_inv : forall c l t, sum_order w (S (length l)) t -> fin (fsum (c :: map fneg (pairs_product l)) t) ->
  fin c /\ Forall (fun c => fin (fst c) /\ fin (snd c)) l /\ Rabs (val (fsum (c :: map fneg (pairs_product l)) t) - (val c - Rpairs l)) <= (2 * INR w + 2) * u * (Rabs (val c) + Apairs l) + 2 * INR w * tiny.
Proof.
  intros c l t O H. assert (L : length (c :: map fneg (pairs_product l)) = S (length l)) by (cbn [length]; unfold pairs_product; rewrite !map_length; reflexivity). rewrite <- L in O.
  destruct (sum_order_inv w _ t ltac:(lra) O H) as (A & B & C). apply Forall_cons_iff in A. destruct A as [A1 A2].
  assert (N : Forall fin (pairs_product l) /\ Rsum (map val (map fneg (pairs_product l))) = - Rsum (map val (pairs_product l)) /\ Rsum (map (fun x => Rabs (val x)) (map fneg (pairs_product l))) = Rsum (map (fun x => Rabs (val x)) (pairs_product l))).
  { revert A2. generalize (pairs_product l) as m. induction m as [|x m IH]; intros A2; [split; [constructor|cbn [map]; change (Rsum []) with 0; split; lra]|]. cbn [map] in *. apply Forall_cons_iff in A2. destruct A2 as [X1 X2]. destruct (IH X2) as (I1 & I2 & I3). destruct (neg_inv x X1) as [Y1 Y2].
    split; [constructor; assumption|]. rewrite !Rsum_cons, I2, I3, Y2, Rabs_Ropp. split; ring. }
  destruct N as (N1 & N2 & N3). destruct (pairs_err l N1) as (D & E & F). split; [exact A1|]. split; [exact D|]. rewrite L in B.
  pose proof (Rabs_pos (val c)). pose proof (Apairs_pos l). pose proof u_pos as U. pose proof (pos_INR w). pose proof (pos_INR (length l)).
  cbn [map] in C. rewrite !Rsum_cons, N2, N3 in C.
  apply (two_stages _ (val c + - Rsum (map val (pairs_product l))) _ _ (length l)); [lia|lra| |].
  - replace (val c + - Rsum (map val (pairs_product l)) - (val c - Rpairs l)) with (- (Rsum (map val (pairs_product l)) - Rpairs l)) by ring. rewrite Rabs_Ropp.
    apply Rle_trans with (1 := E). apply Rplus_le_compat_r, Rmult_le_compat_l; lra.
  - apply Rle_trans with (1 := C). apply Rmult_le_compat_l; [apply Rmult_le_pos; lra|]. assert (0 <= u * Rabs (val c)) by (apply Rmult_le_pos; lra). lra.
Qed.
End Width.

(** ** One entry of x += alpha p and of r -= alpha q *)
Lemma real_update : forall x f m y e B, Rabs x <= B -> Rabs y <= B -> y = (x + f) * (1 + e) -> Rabs e <= u -> Rabs (f - m) <= u * Rabs m + tiny ->
  Rabs (y - (x + m)) <= 5 * u * B + 2 * tiny /\ Rabs m <= 3 * B + 2 * tiny.
Proof.
  intros x f m y e B Hx Hy Ey He Hf. pose proof u_pos as U. pose proof u_tiny as U1. pose proof tiny_pos as T. pose proof (Rabs_pos x).
  assert (S1 : Rabs (x + f) * (1 - u) <= B). { apply Rle_trans with (2 := Hy). rewrite Ey, Rabs_mult. apply Rmult_le_compat_l; [apply Rabs_pos|]. apply abs_le in He. rewrite Rabs_pos_eq; lra. }
  assert (S2 : Rabs (x + f) <= 16 / 15 * B). { assert (Rabs (x + f) * (15 / 16) <= Rabs (x + f) * (1 - u)) by (apply Rmult_le_compat_l; [apply Rabs_pos|lra]). lra. }
  assert (S3 : Rabs f <= 31 / 15 * B). { replace f with ((x + f) - x) by ring. unfold Rminus at 1. apply Rle_trans with (1 := Rabs_triang _ _). rewrite Rabs_Ropp. lra. }
  assert (S4 : Rabs m <= Rabs f + (u * Rabs m + tiny)). { replace m with (f - (f - m)) at 1 by ring. unfold Rminus at 1. apply Rle_trans with (1 := Rabs_triang _ _). rewrite Rabs_Ropp. lra. }
  assert (S5 : u * Rabs m <= / 16 * Rabs m) by (apply Rmult_le_compat_r; [apply Rabs_pos|exact U1]).
  assert (S6 : Rabs m <= 5 / 2 * B + 16 / 15 * tiny) by lra. split; [|lra].
  assert (S7 : u * Rabs m <= 5 / 2 * (u * B) + 16 / 15 * (u * tiny)). { replace (5 / 2 * (u * B) + 16 / 15 * (u * tiny)) with (u * (5 / 2 * B + 16 / 15 * tiny)) by ring. apply Rmult_le_compat_l; lra. }
  assert (S8 : Rabs ((x + f) * e) <= 16 / 15 * B * u). { rewrite Rabs_mult. apply Rmult_le_compat; try apply Rabs_pos; assumption. }
  assert (S9 : u * tiny <= / 16 * tiny) by (apply Rmult_le_compat_r; lra).
  assert (0 <= u * B) by (apply Rmult_le_pos; lra).
  rewrite Ey. replace ((x + f) * (1 + e) - (x + m)) with ((x + f) * e + (f - m)) by ring. apply abs_le in S8, Hf. apply Rabs_le. lra.
Qed.
Lemma update_plus : forall x a p B, fin (fadd x (fmul a p)) -> Rabs (val x) <= B -> Rabs (val (fadd x (fmul a p))) <= B ->
  fin x /\ fin a /\ fin p /\ Rabs (val (fadd x (fmul a p)) - (val x + val a * val p)) <= 5 * u * B + 2 * tiny /\ Rabs (val a * val p) <= 3 * B + 2 * tiny.
Proof.
  intros x a p B H Hx Hy. destruct (add_inv_err _ _ H) as (F1 & F2 & e & He & Ev). destruct (mul_inv_err _ _ F2) as (F3 & F4 & M). split; [exact F1|]. split; [exact F3|]. split; [exact F4|].
  exact (real_update _ _ _ _ e B Hx Hy Ev He M).
Qed.
Lemma update_minus : forall x a p B, fin (fsub x (fmul a p)) -> Rabs (val x) <= B -> Rabs (val (fsub x (fmul a p))) <= B ->
  fin x /\ fin a /\ fin p /\ Rabs (val (fsub x (fmul a p)) - (val x - val a * val p)) <= 5 * u * B + 2 * tiny.
Proof.
  intros x a p B H Hx Hy. destruct (sub_inv_err _ _ H) as (F1 & F2 & e & He & Ev). destruct (mul_inv_err _ _ F2) as (F3 & F4 & M). split; [exact F1|]. split; [exact F3|]. split; [exact F4|].
  refine (proj1 (real_update (val x) (- val (fmul a p)) (- (val a * val p)) _ e B Hx Hy Ev He _)).
  replace (- val (fmul a p) - - (val a * val p)) with (- (val (fmul a p) - val a * val p)) by ring. rewrite !Rabs_Ropp. exact M.
Qed.
