(** The gap between the recorded and the true residual; finiteness; the loop. *)

From Coq Require Import ZArith Reals Lra Lia Psatz List Bool Permutation.
From Coq Require Import SpecFloat.
From Flocq Require Import Core.Core IEEE754.BinarySingleNaN.
From Verif Require Import GridGeoModel ShapeModel FpModel FpProofs GridFpProofs ShapeFpModel ShapeFpSumProofs CGFpModel CGFpSpec CGFpProofs.
Import ListNotations.
Open Scope R_scope.

(** ** Entries of the vectors *)
Lemma rows_from_length : forall (B : Type) (f : nat -> row -> B) A i, length (rows_from f i A) = length A.
Proof. intros B f A. induction A as [|e A IH]; intros i; [reflexivity|]. cbn [rows_from length]. rewrite IH. reflexivity. Qed.
Lemma rows_from_nth : forall (B : Type) (f : nat -> row -> B) A s i d, (i < length A)%nat -> nth i (rows_from f s A) d = f (s + i)%nat (nth i A []).
Proof.
  intros B f A. induction A as [|e A IH]; intros s i d H; [cbn in H; lia|]. cbn [rows_from]. destruct i as [|i]; [cbn [nth]; rewrite Nat.add_0_r; reflexivity|].
  cbn [nth]. rewrite IH by (cbn [length] in H; lia). f_equal. lia.
Qed.
Lemma faxpy_length : forall x a p, length x = length p -> length (faxpy x a p) = length x.
Proof. intros. unfold faxpy. apply map2_length. rewrite map_length. assumption. Qed.
Lemma faxmy_length : forall x a p, length x = length p -> length (faxmy x a p) = length x.
Proof. intros. unfold faxmy. apply map2_length. rewrite map_length. assumption. Qed.
Lemma faxpy_at : forall x a p i, length x = length p -> (i < length x)%nat -> at_ (faxpy x a p) i = fadd (at_ x i) (fmul a (at_ p i)).
Proof.
  intros x a p i L H. unfold faxpy, at_. rewrite (map2_nth _ _ _ fadd x (map (fmul a) p) i (of_int 0) (fmul a (of_int 0)) (of_int 0)) by (try rewrite map_length; assumption). rewrite map_nth. reflexivity.
Qed.
Lemma faxmy_at : forall x a p i, length x = length p -> (i < length x)%nat -> at_ (faxmy x a p) i = fsub (at_ x i) (fmul a (at_ p i)).
Proof.
  intros x a p i L H. unfold faxmy, at_. rewrite (map2_nth _ _ _ fsub x (map (fmul a) p) i (of_int 0) (fmul a (of_int 0)) (of_int 0)) by (try rewrite map_length; assumption). rewrite map_nth. reflexivity.
Qed.
Definition pairs_of (v : vector) (e : row) : list (double * double) := map (fun c => (snd c, at_ v (fst c))) e.
Lemma products_pairs : forall v e, products v e = pairs_product (pairs_of v e).
Proof. intros. unfold products, pairs_product, pairs_of. rewrite map_map. reflexivity. Qed.
Lemma pairs_of_length : forall v e, length (pairs_of v e) = length e.
Proof. intros. apply map_length. Qed.
Lemma all_fin : forall v, Forall fin v <-> forall i, (i < length v)%nat -> fin (at_ v i).
Proof.
  intros v. split.
  - intros H i Hi. apply (proj1 (Forall_forall fin v) H). apply nth_In. exact Hi.
  - intros H. apply Forall_forall. intros x Hx. destruct (In_nth v x (of_int 0) Hx) as (i & Hi & <-). apply H, Hi.
Qed.

(** ** A row *)
Definition Rrow (v : vector) (e : row) : R := Rsum (map (fun c => val (snd c) * val (at_ v (fst c))) e).
Definition Arow (e : row) : R := Rsum (map (fun c : nat * double => Rabs (val (snd c))) e).
Lemma Rpairs_row : forall v e, Rpairs (pairs_of v e) = Rrow v e.
Proof. intros. unfold Rpairs, pairs_of, Rrow. rewrite map_map. reflexivity. Qed.
Lemma Arow_pos : forall e, 0 <= Arow e.
Proof. induction e as [|c e IH]; [apply Rle_refl|]. unfold Arow in *. cbn [map]. rewrite Rsum_cons. pose proof (Rabs_pos (val (snd c))). lra. Qed.
Lemma Apairs_row : forall v e X, (forall c, In c e -> Rabs (val (at_ v (fst c))) <= X) -> Apairs (pairs_of v e) <= Arow e * X.
Proof.
  intros v e X. induction e as [|c e IH]; intros H; [unfold Apairs, Arow; cbn; lra|].
  unfold Apairs, Arow in *. cbn [pairs_of map]. rewrite !Rsum_cons. cbn [fst snd]. fold (pairs_of v e). specialize (IH (fun c' H' => H c' (or_intror H'))).
  rewrite Rabs_mult. assert (Rabs (val (snd c)) * Rabs (val (at_ v (fst c))) <= Rabs (val (snd c)) * X) by (apply Rmult_le_compat_l; [apply Rabs_pos|apply H; left; reflexivity]). lra.
Qed.
Lemma Apairs_scaled : forall v e a D, (forall c, In c e -> Rabs (a * val (at_ v (fst c))) <= D) -> Rabs a * Apairs (pairs_of v e) <= Arow e * D.
Proof.
  intros v e a D. induction e as [|c e IH]; intros H; [unfold Apairs, Arow; cbn; lra|].
  unfold Apairs, Arow in *. cbn [pairs_of map]. rewrite !Rsum_cons. cbn [fst snd]. fold (pairs_of v e). specialize (IH (fun c' H' => H c' (or_intror H'))).
  assert (Rabs a * Rabs (val (snd c) * val (at_ v (fst c))) <= Rabs (val (snd c)) * D); [|lra].
  rewrite Rabs_mult. replace (Rabs a * (Rabs (val (snd c)) * Rabs (val (at_ v (fst c))))) with (Rabs (val (snd c)) * Rabs (a * val (at_ v (fst c)))) by (rewrite Rabs_mult; ring).
  apply Rmult_le_compat_l; [apply Rabs_pos|apply H; left; reflexivity].
Qed.
Lemma row_update : forall x x' p a e E, (forall c, In c e -> Rabs (val (at_ x' (fst c)) - (val (at_ x (fst c)) + a * val (at_ p (fst c)))) <= E) ->
  Rabs (Rrow x' e - (Rrow x e + a * Rrow p e)) <= Arow e * E.
Proof.
  intros x x' p a e E. induction e as [|c e IH]; intros H; [unfold Rrow, Arow; cbn; rewrite Rmult_0_r, Rplus_0_r, Rminus_0_r, Rabs_R0; lra|].
  unfold Rrow, Arow in *. cbn [map]. rewrite !Rsum_cons. specialize (IH (fun c' H' => H c' (or_intror H'))).
  set (R1 := Rsum (map (fun c => val (snd c) * val (at_ x' (fst c))) e)) in *. set (R2 := Rsum (map (fun c => val (snd c) * val (at_ x (fst c))) e)) in *. set (R3 := Rsum (map (fun c => val (snd c) * val (at_ p (fst c))) e)) in *.
  replace (val (snd c) * val (at_ x' (fst c)) + R1 - (val (snd c) * val (at_ x (fst c)) + R2 + a * (val (snd c) * val (at_ p (fst c)) + R3)))
    with (val (snd c) * (val (at_ x' (fst c)) - (val (at_ x (fst c)) + a * val (at_ p (fst c)))) + (R1 - (R2 + a * R3))) by ring.
  apply Rle_trans with (1 := Rabs_triang _ _). rewrite Rabs_mult.
  assert (Rabs (val (snd c)) * Rabs (val (at_ x' (fst c)) - (val (at_ x (fst c)) + a * val (at_ p (fst c)))) <= Rabs (val (snd c)) * E) by (apply Rmult_le_compat_l; [apply Rabs_pos|apply H; left; reflexivity]). lra.
Qed.

Section Run.
Variables (w n : nat) (order : reduction -> tree) (A : matrix) (precond : vector -> vector).
Hypothesis W : INR w * u <= / 16.
Hypothesis HA : square_matrix n A.
Hypothesis HO : orders_within w n A order.
Hypothesis HP : forall v, length v = n -> length (precond v) = n.

Definition sized (s : state) : Prop := length (s_x s) = n /\ length (s_r s) = n /\ length (s_p s) = n.
Lemma fproduct_length : forall k v, length (fproduct order A k v) = n.
Proof. intros. unfold fproduct. rewrite rows_from_length. apply (proj1 HA). Qed.
Lemma fresidual_length : forall b x, length (fresidual order A b x) = n.
Proof. intros. unfold fresidual. rewrite rows_from_length. apply (proj1 HA). Qed.
Lemma sized_step : forall k s, sized s -> sized (step order A precond k s).
Proof.
  intros k s (X & R & P). unfold step, sized. cbn [s_x s_r s_p]. assert (L : length (faxmy (s_r s) (step_length order A k s) (fproduct order A k (s_p s))) = n) by (rewrite faxmy_length; rewrite ?fproduct_length; assumption).
  rewrite faxpy_length by congruence. rewrite (faxpy_length (precond _)); rewrite ?(HP _ L); auto.
Qed.
Lemma sized_first : forall b x, length x = n -> sized (first_state order A precond b x).
Proof. intros b x L. unfold first_state, sized. cbn [s_x s_r s_p]. rewrite (HP _ (fresidual_length b x)), fresidual_length. auto. Qed.
Lemma sized_at : forall b x k, length x = n -> sized (state_at order A precond b x k).
Proof. intros b x k L. induction k as [|k IH]; cbn [state_at]; [apply sized_first, L|apply sized_step, IH]. Qed.

Lemma nth_row : forall i, (i < n)%nat -> In (nth i A []) A.
Proof. intros i H. apply nth_In. rewrite (proj1 HA). exact H. Qed.
Lemma row_columns : forall i c, (i < n)%nat -> In c (nth i A []) -> (fst c < n)%nat.
Proof. intros i c H Hc. exact (proj1 (proj2 HA) _ _ (nth_row i H) Hc). Qed.
Lemma product_at : forall k v i, (i < n)%nat -> at_ (fproduct order A k v) i = fsum (pairs_product (pairs_of v (nth i A []))) (order (Product k i)).
Proof. intros k v i H. unfold at_, fproduct. rewrite rows_from_nth by (rewrite (proj1 HA); exact H). cbn [Nat.add]. rewrite products_pairs. reflexivity. Qed.
Lemma residual_at : forall b x i, (i < n)%nat -> at_ (fresidual order A b x) i = fsum (at_ b i :: map fneg (pairs_product (pairs_of x (nth i A [])))) (order (Initial i)).
Proof. intros b x i H. unfold at_ at 1, fresidual. rewrite rows_from_nth by (rewrite (proj1 HA); exact H). cbn [Nat.add]. rewrite products_pairs. reflexivity. Qed.

(** ** The first residual *)
Lemma first_fin : forall b x, length b = n -> length x = n -> Forall fin (fresidual order A b x) -> Forall fin b /\ Forall fin x /\ forall e c, In e A -> In c e -> fin (snd c).
Proof.
  intros b x Lb Lx H. assert (R : forall i, (i < n)%nat -> fin (at_ b i) /\ Forall (fun c => fin (fst c) /\ fin (snd c)) (pairs_of x (nth i A []))).
  { intros i Hi. pose proof (proj1 (all_fin _) H i ltac:(rewrite fresidual_length; exact Hi)) as F. rewrite residual_at in F by exact Hi.
    destruct (sum_residual_inv w W (at_ b i) (pairs_of x (nth i A [])) (order (Initial i))) as (F1 & F2 & _); [rewrite pairs_of_length; apply (proj2 (proj2 HO) i Hi)|exact F|]. split; assumption. }
  assert (E : forall e c, In e A -> In c e -> fin (snd c) /\ fin (at_ x (fst c))).
  { intros e c He Hc. destruct (In_nth A e [] He) as (i & Hi & <-). rewrite (proj1 HA) in Hi. destruct (R i Hi) as [_ F]. apply (proj1 (Forall_forall _ _) F (snd c, at_ x (fst c))). apply (in_map (fun c => (snd c, at_ x (fst c)))). exact Hc. }
  split; [apply all_fin; intros i Hi; rewrite Lb in Hi; apply (R i Hi)|]. split; [|intros e c He Hc; apply (E e c He Hc)].
  apply all_fin. intros j Hj. rewrite Lx in Hj. destruct (proj2 (proj2 HA) j Hj) as (e & c & He & Hc & <-). apply (E e c He Hc).
Qed.
Lemma first_gap : forall b x X i, (i < n)%nat -> length x = n -> (forall j, (j < n)%nat -> Rabs (val (at_ x j)) <= X) -> fin (at_ (fresidual order A b x) i) ->
  Rabs (exact_residual A b x i - val (at_ (fresidual order A b x) i)) <= (2 * INR w + 2) * u * (Rabs (val (at_ b i)) + row_sum A i * X) + 2 * INR w * tiny.
Proof.
  intros b x X i Hi Lx HX F. rewrite residual_at in F by exact Hi. rewrite residual_at by exact Hi.
  destruct (sum_residual_inv w W (at_ b i) (pairs_of x (nth i A [])) (order (Initial i))) as (_ & _ & E); [rewrite pairs_of_length; apply (proj2 (proj2 HO) i Hi)|exact F|].
  rewrite Rpairs_row in E. rewrite <- Rabs_Ropp. unfold exact_residual. fold (Rrow x (nth i A [])).
  match goal with |- Rabs ?a <= _ => replace a with (val (fsum (at_ b i :: map fneg (pairs_product (pairs_of x (nth i A [])))) (order (Initial i))) - (val (at_ b i) - Rrow x (nth i A []))) by ring end.
  apply Rle_trans with (1 := E). apply Rplus_le_compat_r, Rmult_le_compat_l; [pose proof u_pos; pose proof (pos_INR w); apply Rmult_le_pos; lra|].
  apply Rplus_le_compat_l. unfold row_sum. apply Apairs_row. intros c Hc. apply HX, (row_columns i c Hi Hc).
Qed.

(** ** One iteration *)
Lemma step_fin : forall k s, sized s -> Forall fin (s_x (step order A precond k s)) -> Forall fin (s_r (step order A precond k s)) ->
  Forall fin (s_x s) /\ Forall fin (s_r s) /\ forall i, (i < n)%nat -> fin (at_ (fproduct order A k (s_p s)) i).
Proof.
  intros k s (Lx & Lr & Lp) Fx Fr. unfold step in Fx, Fr. cbn [s_x s_r] in Fx, Fr. set (a := step_length order A k s) in *.
  rewrite all_fin in Fx, Fr. rewrite faxpy_length in Fx by congruence. rewrite faxmy_length in Fr by (rewrite fproduct_length; congruence). rewrite Lx in Fx. rewrite Lr in Fr.
  assert (Fx' : forall i, (i < n)%nat -> fin (at_ (s_x s) i)). { intros i Hi. specialize (Fx i Hi). rewrite faxpy_at in Fx by (congruence || (rewrite Lx; exact Hi)). apply (add_inv _ _ Fx). }
  assert (Fr' : forall i, (i < n)%nat -> fin (at_ (s_r s) i) /\ fin (at_ (fproduct order A k (s_p s)) i)).
  { intros i Hi. specialize (Fr i Hi). rewrite faxmy_at in Fr by ((rewrite fproduct_length; congruence) || (rewrite Lr; exact Hi)). destruct (sub_inv _ _ Fr) as (F1 & F2 & _). split; [exact F1|apply (mul_inv _ _ F2)]. }
  split; [apply all_fin; rewrite Lx; exact Fx'|]. split; [apply all_fin; rewrite Lr; intros i Hi; apply (Fr' i Hi)|intros i Hi; apply (Fr' i Hi)].
Qed.
Lemma step_gap : forall k s b X S0 M i, sized s -> (i < n)%nat -> Forall fin (s_x (step order A precond k s)) -> Forall fin (s_r (step order A precond k s)) ->
  (forall j, (j < n)%nat -> Rabs (val (at_ (s_x s) j)) <= X /\ Rabs (val (at_ (s_x (step order A precond k s)) j)) <= X) ->
  Rabs (val (at_ (s_r s) i)) <= S0 -> Rabs (val (at_ (s_r (step order A precond k s)) i)) <= S0 -> Rabs (val (step_length order A k s)) <= M ->
  let s' := step order A precond k s in
  Rabs (exact_residual A b (s_x s') i - val (at_ (s_r s') i)) <=
    Rabs (exact_residual A b (s_x s) i - val (at_ (s_r s) i)) + row_sum A i * (5 * u * X + 2 * tiny) +
    ((2 * INR w + 2) * u * (row_sum A i * (3 * X + 2 * tiny)) + M * (2 * INR w * tiny)) + (5 * u * S0 + 2 * tiny).
Proof.
  intros k s b X S0 M i Hs Hi Fx Fr HX Hr Hr' HM s'. destruct (step_fin k s Hs Fx Fr) as (Gx & Gr & Gq). destruct Hs as (Lx & Lr & Lp).
  unfold s'. unfold step in Fx, Fr, HX, Hr' |- *. cbn [s_x s_r] in *. set (a := step_length order A k s) in *.
  rewrite all_fin in Fx, Fr. rewrite faxpy_length in Fx by congruence. rewrite faxmy_length in Fr by (rewrite fproduct_length; congruence). rewrite Lx in Fx. rewrite Lr in Fr.
  set (e := nth i A []). pose proof u_pos as U. pose proof tiny_pos as T. pose proof (pos_INR w) as Pw.
  assert (UX : forall j, (j < n)%nat -> Rabs (val (at_ (faxpy (s_x s) a (s_p s)) j) - (val (at_ (s_x s) j) + val a * val (at_ (s_p s) j))) <= 5 * u * X + 2 * tiny /\ Rabs (val a * val (at_ (s_p s) j)) <= 3 * X + 2 * tiny).
  { intros j Hj. specialize (Fx j Hj). destruct (HX j Hj) as [H1 H2]. rewrite faxpy_at in Fx, H2 |- * by (congruence || (rewrite Lx; exact Hj)). apply (update_plus _ _ _ X Fx H1 H2). }
  assert (UR : Rabs (val (at_ (faxmy (s_r s) a (fproduct order A k (s_p s))) i) - (val (at_ (s_r s) i) - val a * val (at_ (fproduct order A k (s_p s)) i))) <= 5 * u * S0 + 2 * tiny).
  { specialize (Fr i Hi). rewrite faxmy_at in Fr, Hr' |- * by ((rewrite fproduct_length; congruence) || (rewrite Lr; exact Hi)). apply (update_minus _ _ _ S0 Fr Hr Hr'). }
  set (q := val (at_ (fproduct order A k (s_p s)) i)) in *.
  assert (UQ : Rabs (q - Rrow (s_p s) e) <= (2 * INR w + 2) * u * Apairs (pairs_of (s_p s) e) + 2 * INR w * tiny).
  { unfold q. rewrite product_at by exact Hi. rewrite <- Rpairs_row. apply (sum_products_inv w W); [rewrite pairs_of_length; apply (proj2 (proj2 HO) i Hi)|]. unfold e. rewrite <- product_at by exact Hi. apply Gq, Hi. }
  assert (UA : Rabs (val a) * Apairs (pairs_of (s_p s) e) <= Arow e * (3 * X + 2 * tiny)) by (apply Apairs_scaled; intros c Hc; apply UX, (row_columns i c Hi Hc)).
  assert (UE : Rabs (Rrow (faxpy (s_x s) a (s_p s)) e - (Rrow (s_x s) e + val a * Rrow (s_p s) e)) <= Arow e * (5 * u * X + 2 * tiny)) by (apply row_update; intros c Hc; apply UX, (row_columns i c Hi Hc)).
  assert (UAQ : Rabs (val a * (q - Rrow (s_p s) e)) <= (2 * INR w + 2) * u * (Arow e * (3 * X + 2 * tiny)) + M * (2 * INR w * tiny)).
  { rewrite Rabs_mult. apply Rle_trans with (Rabs (val a) * ((2 * INR w + 2) * u * Apairs (pairs_of (s_p s) e) + 2 * INR w * tiny)); [apply Rmult_le_compat_l; [apply Rabs_pos|exact UQ]|].
    replace (Rabs (val a) * ((2 * INR w + 2) * u * Apairs (pairs_of (s_p s) e) + 2 * INR w * tiny)) with ((2 * INR w + 2) * u * (Rabs (val a) * Apairs (pairs_of (s_p s) e)) + Rabs (val a) * (2 * INR w * tiny)) by ring.
    apply Rplus_le_compat; [apply Rmult_le_compat_l; [apply Rmult_le_pos; lra|exact UA]|apply Rmult_le_compat_r; [apply Rmult_le_pos; lra|exact HM]]. }
  unfold exact_residual. change (row_sum A i) with (Arow e). fold (Rrow (faxpy (s_x s) a (s_p s)) (nth i A [])) (Rrow (s_x s) (nth i A [])). fold e.
  set (g := Rabs (val (at_ b i) - Rrow (s_x s) e - val (at_ (s_r s) i))). assert (Eg : Rabs (val (at_ b i) - Rrow (s_x s) e - val (at_ (s_r s) i)) <= g) by apply Rle_refl.
  set (r' := val (at_ (faxmy (s_r s) a (fproduct order A k (s_p s))) i)) in *. apply abs_le in UR, UE, UAQ, Eg. apply Rabs_le. lra.
Qed.

(** ** The run *)
Section From.
Variables (b x : vector).
Hypothesis Lb : length b = n.
Hypothesis Lx : length x = n.
Notation at_state := (state_at order A precond b x).
Lemma run_fin : forall K, Forall fin (s_x (at_state K)) -> Forall fin (s_r (at_state K)) -> forall k, (k <= K)%nat -> Forall fin (s_x (at_state k)) /\ Forall fin (s_r (at_state k)).
Proof.
  induction K as [|K IH]; intros Fx Fr k Hk; [replace k with 0%nat by lia; split; assumption|].
  destruct (Nat.eq_dec k (S K)) as [ -> | N ]; [split; assumption|]. cbn [state_at] in Fx, Fr. destruct (step_fin K (at_state K) (sized_at b x K Lx) Fx Fr) as (Gx & Gr & _). apply IH; [exact Gx|exact Gr|lia].
Qed.
Lemma run_gap : forall K X S0 M i, (i < n)%nat -> Forall fin (s_x (at_state K)) -> Forall fin (s_r (at_state K)) ->
  (forall k j, (k <= K)%nat -> (j < n)%nat -> Rabs (val (at_ (s_x (at_state k)) j)) <= X /\ Rabs (val (at_ (s_r (at_state k)) j)) <= S0) ->
  (forall k, (k < K)%nat -> Rabs (val (step_length order A k (at_state k))) <= M) ->
  Rabs (exact_residual A b (s_x (at_state K)) i - val (at_ (s_r (at_state K)) i)) <=
    (2 * INR w + 2) * u * (Rabs (val (at_ b i)) + row_sum A i * X) + 2 * INR w * tiny +
    INR K * (row_sum A i * (5 * u * X + 2 * tiny) + ((2 * INR w + 2) * u * (row_sum A i * (3 * X + 2 * tiny)) + M * (2 * INR w * tiny)) + (5 * u * S0 + 2 * tiny)).
Proof.
  intros K X S0 M i Hi. induction K as [|K IH]; intros Fx Fr HB HM.
  - change (INR 0) with 0. rewrite Rmult_0_l, Rplus_0_r. cbn [state_at first_state s_x s_r] in *. apply first_gap; [exact Hi|exact Lx|intros j Hj; apply (HB 0%nat j); [lia|exact Hj]|]. apply all_fin; [exact Fr|rewrite fresidual_length; exact Hi].
  - destruct (run_fin (S K) Fx Fr K ltac:(lia)) as [Gx Gr]. specialize (IH Gx Gr (fun k j Hk Hj => HB k j ltac:(lia) Hj) (fun k Hk => HM k ltac:(lia))).
    cbn [state_at] in Fx, Fr |- *. pose proof (step_gap K (at_state K) b X S0 M i (sized_at b x K Lx) Hi Fx Fr) as G1.
    cbv zeta in G1. rewrite S_INR. eapply Rle_trans; [apply G1|].
    + intros j Hj. split; [apply (HB K j); [lia|exact Hj]|apply (HB (S K) j); [lia|exact Hj]].
    + apply (HB K i); [lia|exact Hi].
    + apply (HB (S K) i); [lia|exact Hi].
    + apply HM. lia.
    + lra.
Qed.

(** ** The loop *)
Lemma loop : forall thr fuel k res, let o := iterations order A precond thr fuel k (at_state k) res in
  exists m, (m <= fuel)%nat /\ solution o = s_x (at_state (k + m)) /\ nb_iterations o = (k + m)%nat /\
    squared_residuals o = res ++ map (fun i => fsquaredNorm order (Norm (S i)) (s_r (at_state (S i)))) (seq k m) /\
    (converged o = true -> (0 < m)%nat) /\ (converged o = false -> m = fuel) /\
    forall i, (i < m)%nat -> flt (fsquaredNorm order (Norm (S (k + i))) (s_r (at_state (S (k + i))))) thr = (converged o && (S i =? m)%nat)%bool.
Proof.
  clear Lb Lx HA HO HP W. intros thr. induction fuel as [|fuel IH]; intros k res; cbn [iterations].
  - exists 0%nat. cbn [solution nb_iterations squared_residuals converged seq map]. rewrite Nat.add_0_r, app_nil_r. repeat split; try lia; try discriminate.
  - cbv zeta. change (step order A precond k (at_state k)) with (at_state (S k)). destruct (flt _ thr) eqn:E.
    + exists 1%nat. cbn [solution nb_iterations squared_residuals converged seq map]. rewrite Nat.add_1_r. split; [lia|]. split; [reflexivity|]. split; [reflexivity|]. split; [reflexivity|]. split; [lia|]. split; [discriminate|].
      intros i Hi. replace i with 0%nat by lia. rewrite Nat.add_0_r, E. reflexivity.
    + destruct (IH (S k) (res ++ [fsquaredNorm order (Norm (S k)) (s_r (at_state (S k)))])) as (m & A1 & A2 & A3 & A4 & A5 & A6 & A7). exists (S m).
      rewrite Nat.add_succ_r, <- Nat.add_succ_l. split; [lia|]. split; [exact A2|]. split; [exact A3|]. split; [rewrite A4, <- app_assoc; reflexivity|]. split; [intros; lia|]. split; [intros H; rewrite (A6 H); reflexivity|].
      intros i Hi. destruct i as [|i].
      * rewrite Nat.add_0_r, E. symmetry. destruct (converged _) eqn:C; [|reflexivity]. specialize (A5 eq_refl). cbn. destruct m; [lia|reflexivity].
      * rewrite Nat.add_succ_r, <- Nat.add_succ_l. apply A7. lia.
Qed.
End From.
End Run.
