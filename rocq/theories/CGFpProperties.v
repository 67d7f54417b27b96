(** C86: the conjugate gradient solver on IEEE doubles. *)

From Coq Require Import ZArith Reals Lra Lia Psatz List Bool Permutation.
From Coq Require Import SpecFloat.
From Flocq Require Import Core.Core IEEE754.BinarySingleNaN.
From Verif Require Import GridGeoModel ShapeModel FpModel FpProofs GridFpProofs GridFpAroundProofs ShapeFpModel ShapeFpProofs ShapeFpSumProofs CGFpModel CGFpSpec CGFpProofs CGFpGapProofs CGFpNormProofs.
Import ListNotations.
Open Scope R_scope.

(** What the loop does, for every input, NaN and infinities included, for every order of the sums and every
    preconditioner: the two early exits report no convergence; otherwise as many residuals are recorded as iterations are made, at most
    the maximum; convergence is reported exactly when the last recorded residual is below the threshold, no earlier
    one is, and all the allowed iterations are made otherwise. *)
Theorem C86_control : forall order A precond maximum tolerance b x,
  let o := solve order A precond maximum tolerance b x in
  let b_norm_2 := fsquaredNorm order NormB b in
  let threshold := threshold_of tolerance b_norm_2 in
  let residual k := fsquaredNorm order (Norm k) (s_r (state_at order A precond b x k)) in
  (flt b_norm_2 EPS = true /\ o = Outcome (map (fun _ => of_int 0) x) false [] 1) \/
  (flt b_norm_2 EPS = false /\ flt (residual 0%nat) threshold = true /\ o = Outcome x false [] 1) \/
  (flt b_norm_2 EPS = false /\ flt (residual 0%nat) threshold = false /\
   let K := length (squared_residuals o) in
   (K <= maximum)%nat /\ nb_iterations o = K /\ solution o = s_x (state_at order A precond b x K) /\
   squared_residuals o = map (fun k => residual (S k)) (seq 0 K) /\
   (converged o = true <-> exists l r, squared_residuals o = l ++ [r] /\ flt r threshold = true) /\
   (forall l r m, squared_residuals o = l ++ r :: m -> flt r threshold = true -> m = []) /\
   (converged o = false -> K = maximum)).
Proof.
  intros order A precond maximum tolerance b x o b_norm_2 threshold residual. unfold o, solve. fold b_norm_2. destruct (flt b_norm_2 EPS); [left; split; reflexivity|]. right.
  cbv zeta. fold threshold. change (fsquaredNorm order (Norm 0) (s_r (first_state order A precond b x))) with (residual 0%nat). destruct (flt (residual 0%nat) threshold); [left; repeat split|]. right. split; [reflexivity|]. split; [reflexivity|].
  destruct (loop order A precond b x threshold maximum 0 []) as (m & A1 & A2 & A3 & A4 & A5 & A6 & A7). cbn [Nat.add app] in *. change (state_at order A precond b x 0) with (first_state order A precond b x) in *.
  set (p := iterations order A precond threshold maximum 0 (first_state order A precond b x) []) in *.
  assert (L : length (squared_residuals p) = m) by (rewrite A4, map_length, seq_length; reflexivity). rewrite L.
  assert (N : forall l r t, squared_residuals p = l ++ r :: t -> flt r threshold = (converged p && (S (length l) =? m)%nat)%bool /\ (length l < m)%nat).
  { intros l r t E. assert (Hl : (length l < m)%nat) by (rewrite <- L, E, app_length; cbn [length]; lia). split; [|exact Hl]. rewrite <- (A7 (length l) Hl). f_equal.
    assert (E2 : nth (length l) (squared_residuals p) (of_int 0) = r) by (rewrite E, app_nth2, Nat.sub_diag by lia; reflexivity). rewrite <- E2, A4.
    rewrite (nth_indep _ _ (residual (S 0))) by (rewrite map_length, seq_length; exact Hl). rewrite (map_nth (fun k => residual (S k))), seq_nth by exact Hl. reflexivity. }
  split; [exact A1|]. split; [exact A3|]. split; [exact A2|]. split; [exact A4|]. split; [|split].
  - split.
    + intros C. pose proof (A5 C) as Pm. destruct (exists_last (l := squared_residuals p)) as (l & r & E); [intros E0; rewrite E0 in L; cbn in L; lia|]. exists l, r. split; [exact E|].
      destruct (N l r [] E) as [F _]. rewrite F, C. apply Nat.eqb_eq. rewrite <- L, E, app_length. cbn [length]. lia.
    + intros (l & r & E & F). destruct (N l r [] E) as [G1 _]. rewrite F in G1. symmetry in G1. apply andb_true_iff in G1. apply G1.
  - intros l r t E F. destruct (N l r t E) as [G1 _]. rewrite F in G1. symmetry in G1. apply andb_true_iff in G1. destruct G1 as [_ G1]. apply Nat.eqb_eq in G1.
    assert (length t = 0)%nat by (rewrite <- L, E, app_length in G1; cbn [length] in G1; lia). destruct t; [reflexivity|discriminate].
  - exact A6.
Qed.
Print Assumptions C86_control.

(** A finite recorded residual comes from finite ones. *)
Lemma residual_fin : forall n order A precond b x K, square_matrix n A -> (forall v, length v = n -> length (precond v) = n) -> length x = n ->
  Forall fin (s_r (state_at order A precond b x K)) -> Forall fin (fresidual order A b x).
Proof.
  intros n order A precond b x K HA HP Lx. induction K as [|K IH]; intros F; [exact F|]. apply IH. destruct (sized_at n order A precond HA HP b x K Lx) as (_ & Lr & _).
  cbn [state_at] in F. unfold step in F. cbn [s_r] in F. rewrite all_fin in F. pose proof (fproduct_length n order A HA K (s_p (state_at order A precond b x K))) as Lq. rewrite faxmy_length in F by (rewrite Lq; exact Lr).
  apply all_fin. intros i Hi. specialize (F i Hi). rewrite faxmy_at in F by ((rewrite Lq; exact Lr) || exact Hi). apply (sub_inv _ _ F).
Qed.
(** The run that reports convergence. *)
Lemma converged_run : forall order A precond maximum tolerance b x, let o := solve order A precond maximum tolerance b x in converged o = true ->
  let K := length (squared_residuals o) in
  flt (fsquaredNorm order NormB b) EPS = false /\ solution o = s_x (state_at order A precond b x K) /\
  flt (fsquaredNorm order (Norm K) (s_r (state_at order A precond b x K))) (threshold_of tolerance (fsquaredNorm order NormB b)) = true.
Proof.
  intros order A precond maximum tolerance b x o C K. pose proof (C86_control order A precond maximum tolerance b x) as H. cbv zeta in H. fold o in H.
  destruct H as [(_ & E)|[(_ & _ & E)|(E1 & _ & _ & _ & E2 & E3 & E4 & _)]]; [rewrite E in C; discriminate C|rewrite E in C; discriminate C|]. fold K in E2, E3.
  split; [exact E1|]. split; [exact E2|]. apply E4 in C. destruct C as (l & r & E & F). assert (L : K = S (length l)) by (unfold K; rewrite E, app_length; cbn [length]; lia).
  rewrite <- F. f_equal. rewrite E, L, seq_S, map_app in E3. cbn [map Nat.add] in E3. apply app_inj_tail in E3. rewrite L. symmetry. apply E3.
Qed.

(** A NaN or an infinity in the matrix, in the right-hand side or in the initial guess never ends in a reported
    convergence; solveSystem then leaves the vector as it was. *)
Theorem C86_bad_input_not_converged : forall w n order A precond maximum tolerance b x,
  (Z.of_nat w <= 2 ^ 40)%Z -> square_matrix n A -> orders_within w n A order -> (forall v, length v = n -> length (precond v) = n) -> length b = n -> length x = n ->
  ~ (Forall fin b /\ Forall fin x /\ forall e c, In e A -> In c e -> fin (snd c)) ->
  converged (solve order A precond maximum tolerance b x) = false /\ solveSystem order A precond maximum tolerance b x = x.
Proof.
  intros w n order A precond maximum tolerance b x Hw HA HO HP Lb Lx Bad.
  assert (C : converged (solve order A precond maximum tolerance b x) = false).
  { destruct (converged _) eqn:C; [|reflexivity]. exfalso. apply Bad. destruct (converged_run _ _ _ _ _ _ _ C) as (_ & _ & F). apply norm_below_fin in F.
    assert (W : INR w * u <= / 16). { pose proof u_pos. assert (INR w <= IZR (2 ^ 40)) by (rewrite INR_IZR_INZ; apply IZR_le, Hw). apply Rle_trans with (IZR (2 ^ 40) * u); [apply Rmult_le_compat_r; lra|]. rewrite u_val. lra. }
    assert (O : sum_order w (length (s_r (state_at order A precond b x (length (squared_residuals (solve order A precond maximum tolerance b x)))))) (order (Norm (length (squared_residuals (solve order A precond maximum tolerance b x)))))).
    { destruct (sized_at n order A precond HA HP b x (length (squared_residuals (solve order A precond maximum tolerance b x))) Lx) as (_ & Lr & _). rewrite Lr. apply (proj1 (proj2 HO)). }
    destruct (norm_err w order _ _ W O F) as [G1 _]. apply (residual_fin n) in G1; [|assumption..]. exact (first_fin w n order A W HA HO b x Lb Lx G1). }
  split; [exact C|]. unfold solveSystem. rewrite C. reflexivity.
Qed.
Print Assumptions C86_bad_input_not_converged.

(** When convergence is reported and the solution is finite, the exact residual of the returned vector is, up to a
    drift e, within the asked tolerance (nearly).  X bounds the entries of all the iterates, S those of the recorded residuals,
    and the drift grows with the number of iterations, the largest iterate and the number of terms of the sums.
    Missing from the claim: the drift itself, see the refutations below. *)
Theorem C86_genuine_partial : forall w n order A precond maximum tolerance b x X S0,
  (Z.of_nat w <= 2 ^ 40)%Z -> square_matrix n A -> orders_within w n A order -> (forall v, length v = n -> length (precond v) = n) -> length b = n -> length x = n ->
  let o := solve order A precond maximum tolerance b x in
  let K := length (squared_residuals o) in
  converged o = true -> Forall fin (solution o) ->
  fin tolerance -> bpow radix2 (-400) <= val tolerance <= 1 ->
  fin (fsquaredNorm order NormB b) -> val (fsquaredNorm order NormB b) <= bpow radix2 1000 ->
  (forall k j, (k <= K)%nat -> (j < n)%nat ->
     Rabs (val (at_ (s_x (state_at order A precond b x k)) j)) <= X /\ Rabs (val (at_ (s_r (state_at order A precond b x k)) j)) <= S0) ->
  (forall k, (k < K)%nat -> Rabs (val (step_length order A k (state_at order A precond b x k))) <= bpow radix2 900) ->
  exists e : nat -> R,
    (forall i, (i < n)%nat -> Rabs (e i) <=
       8 * (INR w + 2) * bpow radix2 (-53) * (Rabs (val (at_ b i)) + (INR K + 1) * (row_sum A i * X) + INR K * S0) +
       (INR K + 1) * (INR w + 2) * (1 + row_sum A i) * bpow radix2 (-170)) /\
    length2 n (fun i => exact_residual A b (solution o) i - e i) <=
      (1 + 8 * (INR w + 2) * bpow radix2 (-53)) * (val tolerance * val tolerance) * length2 n (fun i => val (at_ b i)).
Proof.
  intros w n order A precond maximum tolerance b x X S0 Hw HA HO HP Lb Lx o K C Fx Ft Ht Fb Bb HB HM. destruct (converged_run _ _ _ _ _ _ _ C) as (E1 & E2 & E3). fold o in E2, E3. fold K in E2, E3.
  assert (W : INR w * u <= / 16). { pose proof u_pos. assert (INR w <= IZR (2 ^ 40)) by (rewrite INR_IZR_INZ; apply IZR_le, Hw). apply Rle_trans with (IZR (2 ^ 40) * u); [apply Rmult_le_compat_r; lra|]. rewrite u_val. lra. }
  set (s := state_at order A precond b x K) in *. destruct (sized_at n order A precond HA HP b x K Lx) as (LX & LR & _). fold s in LX, LR.
  pose proof (norm_below_fin _ _ _ _ E3) as Fn. destruct (norm_err w order (Norm K) (s_r s) W ltac:(rewrite LR; apply (proj1 (proj2 HO))) Fn) as [Fr _]. rewrite E2 in Fx |- *.
  exists (fun i => exact_residual A b (s_x s) i - val (at_ (s_r s) i)). fold u. split.
  - intros i Hi. assert (HX : 0 <= X) by (eapply Rle_trans; [apply Rabs_pos|apply (HB 0%nat i); [lia|exact Hi]]). assert (HS : 0 <= S0) by (eapply Rle_trans; [apply Rabs_pos|apply (HB 0%nat i); [lia|exact Hi]]).
    pose proof (run_gap w n order A precond W HA HO HP b x Lb Lx K X S0 (bpow radix2 900) i Hi Fx Fr HB HM) as GB. fold s in GB. apply Rle_trans with (1 := GB).
    pose proof (Arow_pos (nth i A [])) as PA. change (Arow (nth i A [])) with (row_sum A i) in PA. pose proof (pos_INR K) as PK. pose proof (pos_INR w) as Pw. pose proof (Rabs_pos (val (at_ b i))) as PB. pose proof u_pos as U. pose proof u_tiny as U1. pose proof tiny_pos as T.
    set (a := row_sum A i) in *. set (k := INR K) in *. set (v := INR w) in *. set (bi := Rabs (val (at_ b i))) in *.
    assert (ET : bpow radix2 900 * tiny = bpow radix2 (-5) * bpow radix2 (-170)) by (unfold tiny; rewrite <- !bpow_plus; reflexivity).
    assert (LT : tiny <= bpow radix2 (-10) * bpow radix2 (-170)) by (unfold tiny; rewrite <- bpow_plus; apply bpow_half; lia).
    change (bpow radix2 (-5)) with (/ 32) in ET. change (bpow radix2 (-10)) with (/ 1024) in LT. set (z := bpow radix2 (-170)) in *. assert (Pz : 0 < z) by apply bpow_gt_0.
    replace (bpow radix2 900 * (2 * v * tiny)) with (2 * v * (bpow radix2 900 * tiny)) by ring. rewrite ET.
    assert (aX : 0 <= a * X) by (apply Rmult_le_pos; assumption). assert (uaX : 0 <= u * (a * X)) by (apply Rmult_le_pos; lra). assert (vuaX : 0 <= v * (u * (a * X))) by (apply Rmult_le_pos; assumption).
    assert (at0 : 0 <= a * tiny) by (apply Rmult_le_pos; lra). assert (uat : u * (a * tiny) <= / 16 * (a * tiny)) by (apply Rmult_le_compat_r; assumption). assert (vuat : v * u * (a * tiny) <= / 16 * (a * tiny)) by (apply Rmult_le_compat_r; assumption).
    assert (atz : a * tiny <= a * (/ 1024 * z)) by (apply Rmult_le_compat_l; assumption). assert (az : 0 <= a * z) by (apply Rmult_le_pos; lra). assert (vt : v * tiny <= v * (/ 1024 * z)) by (apply Rmult_le_compat_l; assumption). assert (vz : 0 <= v * z) by (apply Rmult_le_pos; lra).
    assert (vaz : 0 <= v * (a * z)) by (apply Rmult_le_pos; assumption). assert (ub : 0 <= u * bi) by (apply Rmult_le_pos; lra). assert (vub : 0 <= v * (u * bi)) by (apply Rmult_le_pos; assumption). assert (uS : 0 <= u * S0) by (apply Rmult_le_pos; lra). assert (vuS : 0 <= v * (u * S0)) by (apply Rmult_le_pos; assumption).
    assert (One : a * (5 * u * X + 2 * tiny) + ((2 * v + 2) * u * (a * (3 * X + 2 * tiny)) + 2 * v * (/ 32 * z)) + (5 * u * S0 + 2 * tiny) <= 8 * (v + 2) * u * (a * X + S0) + (v + 2) * (1 + a) * z).
    { replace (a * (5 * u * X + 2 * tiny) + ((2 * v + 2) * u * (a * (3 * X + 2 * tiny)) + 2 * v * (/ 32 * z)) + (5 * u * S0 + 2 * tiny))
        with (11 * (u * (a * X)) + 6 * (v * (u * (a * X))) + 2 * (a * tiny) + 4 * (v * u * (a * tiny)) + 4 * (u * (a * tiny)) + / 16 * (v * z) + 5 * (u * S0) + 2 * tiny) by field.
      replace (8 * (v + 2) * u * (a * X + S0) + (v + 2) * (1 + a) * z) with (8 * (v * (u * (a * X))) + 16 * (u * (a * X)) + 8 * (v * (u * S0)) + 16 * (u * S0) + v * z + v * (a * z) + 2 * z + 2 * (a * z)) by ring. lra. }
    assert (Zero : (2 * v + 2) * u * (bi + a * X) + 2 * v * tiny <= 8 * (v + 2) * u * (bi + a * X) + (v + 2) * (1 + a) * z).
    { replace ((2 * v + 2) * u * (bi + a * X) + 2 * v * tiny) with (2 * (v * (u * bi)) + 2 * (v * (u * (a * X))) + 2 * (u * bi) + 2 * (u * (a * X)) + 2 * (v * tiny)) by ring.
      replace (8 * (v + 2) * u * (bi + a * X) + (v + 2) * (1 + a) * z) with (8 * (v * (u * bi)) + 8 * (v * (u * (a * X))) + 16 * (u * bi) + 16 * (u * (a * X)) + v * z + v * (a * z) + 2 * z + 2 * (a * z)) by ring. lra. }
    pose proof (Rmult_le_compat_l k _ _ PK One) as One'. lra.
  - replace (length2 n (fun i => exact_residual A b (s_x s) i - (exact_residual A b (s_x s) i - val (at_ (s_r s) i)))) with (length2 n (fun i => val (at_ (s_r s) i))).
    2: { unfold length2. f_equal. apply map_ext. intros i. ring. }
    rewrite <- Lb. apply (below_threshold w order tolerance (s_r s) b (Norm K) Hw); try assumption; [congruence|rewrite Lb; apply (proj1 HO)|rewrite Lb; apply (proj1 (proj2 HO))].
Qed.
Print Assumptions C86_genuine_partial.

(** ** Runs *)
(** Left to right from zero. *)
Fixpoint chain (n : nat) : tree := match n with O => Zero | S n => Plus (chain n) (Term n) end.
Lemma chain_order : forall n, sum_order (S n) n (chain n).
Proof.
  intros n. split.
  - replace (terms (chain n)) with (seq 0 n); [apply Permutation_refl|]. induction n as [|n IH]; [reflexivity|]. cbn [chain terms]. rewrite <- IH, seq_S. reflexivity.
  - assert (size (chain n) = S n); [|lia]. induction n as [|n IH]; [reflexivity|]. cbn [chain size]. lia.
Qed.
(** Orders for a matrix whose rows have m entries. *)
Definition chains (n m : nat) (s : reduction) : tree := match s with Initial _ => chain (S m) | Product _ _ => chain m | _ => chain n end.
Lemma chains_within : forall n m (A : matrix), length A = n -> (forall e : row, In e A -> length e = m) -> orders_within (S (S (Nat.max n m))) n A (chains n m).
Proof.
  intros n m A L R. assert (M : forall w k, (S k <= w)%nat -> sum_order w k (chain k)). { intros w k H. destruct (chain_order k) as [P Q]. split; [exact P|lia]. }
  split; [apply M; lia|]. split; [intros k; split; [|split]; apply M; lia|]. intros i Hi. rewrite R by (apply nth_In; rewrite L; exact Hi). split; [apply M; lia|]. intros k. apply M. lia.
Qed.
Definition one_by_one (a : double) : matrix := [[(0%nat, a)]].
Definition tol5 : double := fdiv (of_int 1) (of_int 100000).
Definition run1 (a b x tolerance : double) (maximum : nat) : outcome := solve (chains 1 1) (one_by_one a) (fun v => v) maximum tolerance [b] [x].
Lemma one_by_one_square : forall a, square_matrix 1 (one_by_one a).
Proof.
  intros a. split; [reflexivity|]. split.
  - intros e c [ <- | [] ] [ <- | [] ]. cbn. lia.
  - intros j Hj. exists [(0%nat, a)], (0%nat, a). repeat split; [left; reflexivity|left; reflexivity|cbn; lia].
Qed.
Lemma val_one : forall x s m e, B2SF x = S754_finite s m e -> val x = F2R (Float radix2 (cond_Zopp s (Z.pos m)) e).
Proof. intros x s m e H. rewrite val_SF, H. reflexivity. Qed.

(** 3 x = 1 from the initial guess 10^20, with the tolerance 1e-5: convergence is reported with a finite x, and the exact
    residual of that x is more than 16000 times the right-hand side.  (The initial guess is the last content of the vector,
    EigenSolver.inl:171-187.) *)
Theorem C86_warm_start_refuted : exists maximum,
  let o := run1 (of_int 3) (of_int 1) (of_int (10 ^ 20)) tol5 maximum in
  converged o = true /\ Forall fin (solution o) /\
  Rabs (exact_residual (one_by_one (of_int 3)) [of_int 1] (solution o) 0) > 16000 * Rabs (val (of_int 1)).
Proof.
  exists 10%nat. intros o. split; [vm_compute; reflexivity|].
  assert (S1 : map B2SF (solution o) = [S754_finite false 6004799503160668 (-40)]) by (vm_compute; reflexivity).
  destruct (solution o) as [|y [|z l]]; try discriminate S1. cbn [map] in S1. injection S1 as S1. split; [constructor; [|constructor]; unfold fin; rewrite <- is_finite_SF_B2SF, S1; reflexivity|].
  unfold exact_residual, one_by_one, at_. cbn [nth map fst snd]. rewrite Rsum_cons. change (Rsum []) with 0. destruct (of_int_exact 1) as [_ V1]; [lia|]. destruct (of_int_exact 3) as [_ V3]; [lia|]. rewrite V1, V3, (val_one y _ _ _ S1).
  unfold F2R. cbn [Fnum Fexp cond_Zopp]. change (bpow radix2 (-40)) with (/ IZR (2 ^ 40)). rewrite Rabs_left by lra. rewrite Rabs_pos_eq by lra. lra.
Qed.
Print Assumptions C86_warm_start_refuted.

(** 3 x = 1 with the tolerance 2^-60, below the precision of doubles: the recorded residual is 0 and convergence is
    reported, but the exact residual is above the tolerance. *)
Theorem C86_tolerance_refuted : exists maximum,
  let o := run1 (of_int 3) (of_int 1) (of_int 0) (dbl 1 (- 60)) maximum in
  converged o = true /\ Forall fin (solution o) /\
  Rabs (exact_residual (one_by_one (of_int 3)) [of_int 1] (solution o) 0) > val (dbl 1 (- 60)) * Rabs (val (of_int 1)).
Proof.
  exists 10%nat. intros o. split; [vm_compute; reflexivity|].
  assert (S1 : map B2SF (solution o) = [S754_finite false 6004799503160661 (-54)]) by (vm_compute; reflexivity).
  destruct (solution o) as [|y [|z l]]; try discriminate S1. cbn [map] in S1. injection S1 as S1. split; [constructor; [|constructor]; unfold fin; rewrite <- is_finite_SF_B2SF, S1; reflexivity|].
  unfold exact_residual, one_by_one, at_. cbn [nth map fst snd]. rewrite Rsum_cons. change (Rsum []) with 0. destruct (of_int_exact 1) as [_ V1]; [lia|]. destruct (of_int_exact 3) as [_ V3]; [lia|]. rewrite V1, V3, (val_one y _ _ _ S1).
  destruct (dbl_val 1 60) as [_ V60]; [lia|lia|]. change (- (60))%Z with (-60)%Z in V60. rewrite V60. unfold F2R. cbn [Fnum Fexp cond_Zopp]. change (bpow radix2 (-54)) with (/ IZR (2 ^ 54)). rewrite Rabs_pos_eq by lra. rewrite Rabs_pos_eq by lra. lra.
Qed.
Print Assumptions C86_tolerance_refuted.

(** 2^-600 x = 2^500: convergence is reported with x infinite. *)
Theorem C86_infinite_solution_refuted : exists maximum,
  let o := run1 (dbl 1 (-600)) (dbl 1 500) (of_int 0) tol5 maximum in
  converged o = true /\ ~ Forall fin (solution o).
Proof.
  exists 10%nat. intros o. split; [vm_compute; reflexivity|]. intros H.
  assert (S1 : map B2SF (solution o) = [S754_infinity false]) by (vm_compute; reflexivity). revert H. destruct (solution o) as [|y [|z l]]; try discriminate S1. intros H. cbn [map] in S1. injection S1 as S1.
  apply Forall_inv in H. unfold fin in H. rewrite <- is_finite_SF_B2SF, S1 in H. discriminate H.
Qed.
Print Assumptions C86_infinite_solution_refuted.

(** x = 2^600 (a right-hand side whose squared norm overflows): no number of iterations is enough. *)
Lemma nan_list : forall l : list double, map B2SF l = [S754_nan] -> l = [B754_nan].
Proof. intros [|y [|z l]] H; try discriminate H. destruct y; try discriminate H. reflexivity. Qed.
Lemma fsub_nan : forall y, fsub B754_nan y = B754_nan. Proof. intros y. destruct y; reflexivity. Qed.
Theorem C86_overflow_refuted : forall maximum, converged (run1 (of_int 1) (dbl 1 600) (of_int 0) tol5 maximum) = false.
Proof.
  intros maximum. unfold run1. set (order := chains 1 1). set (A := one_by_one (of_int 1)). set (b := [dbl 1 600]). set (x := [of_int 0]). destruct (converged _) eqn:C; [|reflexivity]. exfalso.
  destruct (converged_run _ _ _ _ _ _ _ C) as (_ & _ & F). set (K := length (squared_residuals (solve order A (fun v => v) maximum tol5 b x))) in *.
  assert (N : forall k, s_r (state_at order A (fun v => v) b x (S k)) = [B754_nan]).
  { induction k as [|k IH].
    - apply nan_list. vm_compute. reflexivity.
    - change (state_at order A (fun v => v) b x (S (S k))) with (step order A (fun v => v) (S k) (state_at order A (fun v => v) b x (S k))). unfold step. cbn [s_r]. rewrite IH. unfold faxmy, fproduct, A, one_by_one. cbn [rows_from map map2]. rewrite fsub_nan. reflexivity. }
  destruct K as [|k].
  - assert (E : flt (fsquaredNorm order (Norm 0) (s_r (state_at order A (fun v => v) b x 0))) (threshold_of tol5 (fsquaredNorm order NormB b)) = false) by (vm_compute; reflexivity). rewrite E in F. discriminate F.
  - rewrite N in F. assert (E : fsquaredNorm order (Norm (S k)) [B754_nan] = B754_nan) by (vm_compute; reflexivity). rewrite E in F. discriminate F.
Qed.
Print Assumptions C86_overflow_refuted.

(** 4 x + y = 1, x + 3 y = 2 with the tolerance 1e-5: convergence in two iterations, and the hypotheses of C86_genuine_partial hold
    with X = 1 and S = 2. *)
Definition A2 : matrix := [[(0%nat, of_int 4); (1%nat, of_int 1)]; [(0%nat, of_int 1); (1%nat, of_int 3)]].
Definition b2 : vector := [of_int 1; of_int 2].
Definition x2 : vector := [of_int 0; of_int 0].
Definition bounded_by (c x : double) : bool := is_finite x && (fle x c && fle (fneg c) x).
Lemma bounded_by_sound : forall z x, (Z.abs z <= 2 ^ 53)%Z -> bounded_by (of_int z) x = true -> fin x /\ Rabs (val x) <= IZR z.
Proof.
  intros z x Hz H. unfold bounded_by in H. apply andb_true_iff in H. destruct H as [F H]. apply andb_true_iff in H. destruct H as [H1 H2]. destruct (of_int_exact z Hz) as [Fz Vz]. destruct (fneg_val _ Fz) as [Fn Vn].
  apply (fle_spec _ _ F Fz) in H1. apply (fle_spec _ _ Fn F) in H2. rewrite Vz in H1. rewrite Vn, Vz in H2. split; [exact F|apply Rabs_le; lra].
Qed.
Example C86_genuine_witness :
  let order := chains 2 2 in let pre := fun v : vector => v in
  let o := solve order A2 pre 10 tol5 b2 x2 in
  (Z.of_nat 4 <= 2 ^ 40)%Z /\ square_matrix 2 A2 /\ orders_within 4 2 A2 order /\ converged o = true /\ Forall fin (solution o) /\ length (squared_residuals o) = 2%nat /\
  fin tol5 /\ bpow radix2 (-400) <= val tol5 <= 1 /\ fin (fsquaredNorm order NormB b2) /\ val (fsquaredNorm order NormB b2) <= bpow radix2 1000 /\
  (forall k j, (k <= 2)%nat -> (j < 2)%nat -> Rabs (val (at_ (s_x (state_at order A2 pre b2 x2 k)) j)) <= 1 /\ Rabs (val (at_ (s_r (state_at order A2 pre b2 x2 k)) j)) <= 2) /\
  (forall k, (k < 2)%nat -> Rabs (val (step_length order A2 k (state_at order A2 pre b2 x2 k))) <= bpow radix2 900).
Proof.
  intros order pre o. split; [lia|]. split.
  { split; [reflexivity|]. split.
    - intros e c [ <- | [ <- | [] ] ] [ <- | [ <- | [] ] ]; cbn; lia.
    - intros j Hj. exists [(0%nat, of_int 4); (1%nat, of_int 1)]. destruct j as [|[|j]]; [exists (0%nat, of_int 4)|exists (1%nat, of_int 1)|lia]; (split; [left; reflexivity|]; split; [|reflexivity]); [left|right; left]; reflexivity. }
  split; [apply (chains_within 2 2); [reflexivity|intros e [ <- | [ <- | [] ] ]; reflexivity]|].
  split; [vm_compute; reflexivity|]. split.
  { apply Forall_forall. intros y Hy. assert (T : forallb (fun y => is_finite y) (solution o) = true) by (vm_compute; reflexivity). exact (proj1 (forallb_forall _ _) T y Hy). }
  split; [vm_compute; reflexivity|].
  assert (P900 : 1 <= bpow radix2 900) by (change 1 with (bpow radix2 0); apply bpow_half; lia). assert (P1000 : 8 <= bpow radix2 1000) by (change 8 with (bpow radix2 3); apply bpow_half; lia).
  split; [vm_compute; reflexivity|]. split.
  { assert (F1 : fle (dbl 1 (- 17)) tol5 = true) by (vm_compute; reflexivity). assert (F2 : fle tol5 (of_int 1) = true) by (vm_compute; reflexivity). assert (Ft : fin tol5) by (vm_compute; reflexivity). destruct (dbl_val 1 17) as [F17 V17]; [lia|lia|]. change (- (17))%Z with (-17)%Z in *. destruct (of_int_exact 1) as [Fo Vo]; [lia|].
    apply (fle_spec _ _ F17 Ft) in F1. apply (fle_spec _ _ Ft Fo) in F2. rewrite V17 in F1. rewrite Vo in F2. split; [|exact F2]. apply Rle_trans with (2 := F1). apply Rle_trans with (bpow radix2 (-17)); [apply bpow_half; lia|]. change (bpow radix2 (-17)) with (/ IZR (2 ^ 17)). lra. }
  split; [vm_compute; reflexivity|]. split.
  { apply Rle_trans with (2 := P1000). apply Rle_trans with (1 := Rle_abs _). apply (bounded_by_sound 8); [lia|vm_compute; reflexivity]. }
  split.
  - assert (T : forallb (fun k => forallb (fun j => bounded_by (of_int 1) (at_ (s_x (state_at order A2 pre b2 x2 k)) j) && bounded_by (of_int 2) (at_ (s_r (state_at order A2 pre b2 x2 k)) j)) (seq 0 2)) (seq 0 3) = true) by (vm_compute; reflexivity).
    intros k j Hk Hj. rewrite forallb_forall in T. specialize (T k ltac:(apply in_seq; lia)). cbv beta in T. rewrite forallb_forall in T. specialize (T j ltac:(apply in_seq; lia)). cbv beta in T. apply andb_true_iff in T. destruct T as [T1 T2].
    split; [apply (bounded_by_sound 1); [lia|exact T1]|apply (bounded_by_sound 2); [lia|exact T2]].
  - assert (T : forallb (fun k => bounded_by (of_int 1) (step_length order A2 k (state_at order A2 pre b2 x2 k))) (seq 0 2) = true) by (vm_compute; reflexivity).
    intros k Hk. rewrite forallb_forall in T. specialize (T k ltac:(apply in_seq; lia)). apply Rle_trans with (2 := P900). apply (bounded_by_sound 1); [lia|exact T].
Qed.
(** A NaN on the right-hand side. *)
Example C86_bad_input_witness : exists b : vector, length b = 2%nat /\ ~ Forall fin b.
Proof. exists [B754_nan; of_int 1]. split; [reflexivity|]. intros H. apply Forall_inv in H. discriminate H. Qed.
