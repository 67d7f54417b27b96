(** Invariant over the histories of calls. *)

From Coq Require Import Reals Lra Lia List Arith Bool Sorted.
From Verif Require Import GridGeoModel ShapeModel Sums SparseModel SparseProofs EigenMatrixModel EigenMatrixSpec.
From Verif Require Import EigenMatrixProofs EigenMatrixProofs2.
Import ListNotations.
Open Scope nat_scope.

Definition holds (m : sparse) (t : table) (wr : nat -> nat -> bool) : Prop :=
  forall i j, inside m i j -> entry m i j = if wr i j then Some (t i j) else None.
Record rep (rm : bool) (s : nat * nat) (sym : bool) (ph : phase) (t : table) (wr : nat -> nat -> bool) (w : wrapper) : Prop := {
  rep_order : rowMajor (p_eigen_matrix w) = rm;
  rep_rows : rowSize w = fst s;
  rep_cols : colSize w = snd s;
  rep_sym : p_is_symmetric w = sym;
  rep_good : good (p_eigen_matrix w);
  rep_zero : forall i j, wr i j = false -> t i j = 0%R;
  rep_phase :
    match ph with
    | Collecting => p_initialized w = false /\ (forall i j, coeff (p_triplets w) i j = t i j) /\
                    (forall i j, stored (p_triplets w) i j = wr i j) /\ holds (p_eigen_matrix w) t (fun _ _ => false)
    | Settled => p_initialized w = true /\ isCompressed (p_eigen_matrix w) /\ holds (p_eigen_matrix w) t wr
    | Loose => p_initialized w = true /\ holds (p_eigen_matrix w) t wr
    end }.

Lemma rep_inside : forall rm s sym ph t wr w i j, rep rm s sym ph t wr w ->
  (inside (p_eigen_matrix w) i j <-> i < fst s /\ j < snd s).
Proof. intros * H. rewrite <- (rep_rows _ _ _ _ _ _ _ H), <- (rep_cols _ _ _ _ _ _ _ H). reflexivity. Qed.
Lemma holds_coefficient : forall m t wr i j, holds m t wr -> (forall i j, wr i j = false -> t i j = 0%R) -> inside m i j ->
  coefficient m i j = t i j.
Proof.
  intros m t wr i j H Z Hin. rewrite coefficient_entry, (H i j Hin). destruct (wr i j) eqn:E; [reflexivity|].
  symmetry. apply Z. exact E.
Qed.
Lemma rep_ext : forall rm s sym ph t wr t' wr' w, (forall i j, t i j = t' i j) -> (forall i j, wr i j = wr' i j) ->
  rep rm s sym ph t wr w -> rep rm s sym ph t' wr' w.
Proof.
  intros * Ht Hw [H1 H2 H3 H4 H5 H6 H7]. split; auto.
  - intros i j. rewrite <- Ht, <- Hw. apply H6.
  - destruct ph.
    + destruct H7 as (A & B & C & D). split; [exact A|]. split; [intros; rewrite <- Ht; apply B|].
      split; [intros; rewrite <- Hw; apply C|]. intros i j Hin. rewrite (D i j Hin). reflexivity.
    + destruct H7 as (A & B & C). split; [exact A|]. split; [exact B|]. intros i j Hin. rewrite (C i j Hin), Ht, Hw. reflexivity.
    + destruct H7 as (A & C). split; [exact A|]. intros i j Hin. rewrite (C i j Hin), Ht, Hw. reflexivity.
Qed.
Lemma rep_loosen : forall rm s sym t wr w, rep rm s sym Settled t wr w -> rep rm s sym Loose t wr w.
Proof. intros * [H1 H2 H3 H4 H5 H6 (A & B & C)]. split; auto. Qed.

Lemma rep_new : forall rm r c, rep rm (r, c) false Collecting all_zero (fun _ _ => false) (new_wrapper rm r c).
Proof.
  intros rm r c. destruct (empty_spec rm r c) as (A & B & C). split; try reflexivity; try exact A.
  cbn [p_initialized p_triplets p_eigen_matrix new_wrapper wrap]. split; [reflexivity|]. split; [reflexivity|]. split; [reflexivity|].
  intros i j Hin. apply C. exact Hin.
Qed.
Lemma rep_resize : forall rm s sym ph t wr w r c, rep rm s sym ph t wr w ->
  rep rm (r, c) sym Collecting all_zero (fun _ _ => false) (resize w r c).
Proof.
  intros * [H1 H2 H3 H4 H5 H6 H7]. destruct (empty_spec rm r c) as (A & B & C).
  unfold resize. rewrite H1. split; try reflexivity; try exact A; try exact H4.
  cbn [p_initialized p_triplets p_eigen_matrix]. split; [reflexivity|]. split; [reflexivity|]. split; [reflexivity|].
  intros i j Hin. apply C. exact Hin.
Qed.
Lemma rep_clear : forall rm s sym ph t wr w, rep rm s sym ph t wr w ->
  rep rm s sym Collecting all_zero (fun _ _ => false) (clear w).
Proof.
  intros * H. replace (clear w) with (resize w (rowSize w) (colSize w)) by reflexivity.
  pose proof (rep_resize _ _ _ _ _ _ _ (rowSize w) (colSize w) H) as R.
  rewrite (rep_rows _ _ _ _ _ _ _ H), (rep_cols _ _ _ _ _ _ _ H) in *. destruct s. exact R.
Qed.
Lemma rep_initialize : forall rm s sym t wr w, rep rm s sym Collecting t wr w -> rep rm s sym Settled t wr (initialize w).
Proof.
  intros * [H1 H2 H3 H4 H5 H6 (A & B & C & D)]. destruct (setFromTriplets_spec (p_eigen_matrix w) (p_triplets w)) as (X & Y & Z).
  split; auto. cbn [p_initialized p_eigen_matrix initialize]. split; [reflexivity|]. split; [exact Y|].
  intros i j Hin. rewrite (Z i j Hin), C, B. reflexivity.
Qed.
Definition awake (ph : phase) : phase := match ph with Collecting => Settled | p => p end.
Lemma rep_ensure : forall rm s sym ph t wr w, rep rm s sym ph t wr w -> rep rm s sym (awake ph) t wr (ensure_initialized w).
Proof.
  intros * H. pose proof (rep_phase _ _ _ _ _ _ _ H) as P. unfold ensure_initialized. destruct ph; cbn [awake].
  - destruct P as (-> & _). apply rep_initialize. exact H.
  - destruct P as (-> & _). exact H.
  - destruct P as (-> & _). exact H.
Qed.
Lemma rep_compress : forall rm s sym ph t wr w, rep rm s sym ph t wr w -> rep rm s sym Settled t wr (compress w).
Proof.
  intros * H. pose proof (rep_phase _ _ _ _ _ _ _ H) as P. unfold compress. destruct ph.
  - destruct P as (-> & _). apply rep_initialize. exact H.
  - destruct P as (I & P1 & P2). rewrite I. destruct H as [H1 H2 H3 H4 H5 H6 _].
    destruct (makeCompressed_spec _ H5) as (X & Y & Z). split; auto. cbn [p_initialized p_eigen_matrix with_matrix].
    split; [exact I|]. split; [exact Y|]. intros i j Hin. rewrite (Z i j Hin). apply P2. exact Hin.
  - destruct P as (I & P2). rewrite I. destruct H as [H1 H2 H3 H4 H5 H6 _].
    destruct (makeCompressed_spec _ H5) as (X & Y & Z). split; auto. cbn [p_initialized p_eigen_matrix with_matrix].
    split; [exact I|]. split; [exact Y|]. intros i j Hin. rewrite (Z i j Hin). apply P2. exact Hin.
Qed.

(** Writing. *)
Lemma coeffRef_shape : forall m i j f free,
  rowMajor (coeffRef m i j f free) = rowMajor m /\ rows (coeffRef m i j f free) = rows m /\ cols (coeffRef m i j f free) = cols m.
Proof. intros. unfold coeffRef. destruct (search _ _ _); repeat split; reflexivity. Qed.
Lemma coeffRef_known : forall m i j f free, good m -> inside m i j -> entry m i j <> None -> isCompressed m -> isCompressed (coeffRef m i j f free).
Proof.
  intros m i j f free G Hin He C. pose proof (inside_outer _ _ _ Hin) as Ho. unfold coeffRef. unfold entry, get in He.
  destruct (search (data (vector m (outer_of m i j))) (nnz (vector m (outer_of m i j))) (inner_of m i j)) as [p|] eqn:E; [|congruence].
  pose proof (search_some _ _ _ _ E) as [Hp _]. pose proof (compressed_vector m _ G C Ho) as FU. unfold full in FU.
  unfold isCompressed, at_vector in *. cbn [vectors with_vectors]. rewrite <- (firstn_skipn (outer_of m i j) (vectors m)) in C.
  apply Forall_app in C. destruct C as [C1 C2]. apply Forall_app. split; [exact C1|]. constructor.
  - cbn [data nnz]. fold (vector m (outer_of m i j)). rewrite assign_length by lia. exact FU.
  - rewrite <- (firstn_skipn 1) in C2. apply Forall_app in C2. destruct C2 as [_ C2].
    replace (skipn (S (outer_of m i j)) (vectors m)) with (skipn 1 (skipn (outer_of m i j) (vectors m))); [exact C2|].
    generalize (outer_of m i j) as k. clear. induction (vectors m) as [|v l IH]; intros [|k]; try reflexivity. cbn [skipn]. apply (IH k).
Qed.
Lemma rep_write : forall rm s sym ph t wr w i j f free, ph <> Collecting -> rep rm s sym ph t wr w ->
  i < fst s -> j < snd s ->
  rep rm s sym (after_write (wr i j) ph) (fun i' j' => if is_at i j i' j' then f (t i' j') else t i' j') (fun i' j' => is_at i j i' j' || wr i' j')%bool
    (with_matrix w (coeffRef (p_eigen_matrix w) i j f free)).
Proof.
  intros * Hp H Hi Hj. pose proof (rep_inside _ _ _ _ _ _ _ i j H) as Hin.
  destruct H as [H1 H2 H3 H4 H5 H6 H7]. apply proj2 in Hin. specialize (Hin (conj Hi Hj)).
  assert (P : p_initialized w = true /\ holds (p_eigen_matrix w) t wr) by (destruct ph; [congruence| |]; tauto).
  destruct P as [I P]. destruct (coeffRef_spec (p_eigen_matrix w) i j f free H5 Hin) as [A B].
  destruct (coeffRef_shape (p_eigen_matrix w) i j f free) as (S1 & S2 & S3).
  assert (HH : holds (coeffRef (p_eigen_matrix w) i j f free) (fun i' j' => if is_at i j i' j' then f (t i' j') else t i' j') (fun i' j' => is_at i j i' j' || wr i' j')%bool).
  { intros i' j' Hin'. unfold inside in Hin'. rewrite S2, S3 in Hin'. rewrite (B i' j' Hin').
    destruct (is_at i j i' j') eqn:E; cbn [orb].
    + unfold is_at in E. apply andb_true_iff in E. destruct E as [E1 E2]. apply Nat.eqb_eq in E1, E2. subst i' j'.
      rewrite (holds_coefficient _ t wr) by assumption. reflexivity.
    + apply P. exact Hin'. }
  split; unfold rowSize, colSize; cbn [p_initialized p_eigen_matrix p_is_symmetric with_matrix];
    rewrite ?S1, ?S2, ?S3; auto.
  - intros i' j'. destruct (is_at i j i' j'); cbn [orb]; [discriminate|apply H6].
  - destruct ph; cbn [after_write]; [congruence| |destruct (wr i j); split; assumption].
    destruct (wr i j) eqn:Ew; cbn [after_write]; [|split; assumption]. split; [exact I|]. split; [|exact HH].
    apply coeffRef_known; try assumption; [|apply H7]. rewrite (P i j Hin), Ew. discriminate.
Qed.
Lemma rep_set : forall rm s sym ph t wr w i j v free, rep rm s sym ph t wr w -> i < fst s -> j < snd s ->
  rep rm s sym (new_phase (Set_ i j v) wr ph) (meaning (Set_ i j v) t) (new_written (Set_ i j v) wr) (set w i j v free).
Proof.
  intros * H Hi Hj. apply rep_ensure in H. unfold set.
  exact (rep_write _ _ _ (awake ph) _ _ _ i j (fun _ => v) free ltac:(destruct ph; discriminate) H Hi Hj).
Qed.
Lemma rep_add : forall rm s sym ph t wr w i j v free, rep rm s sym ph t wr w -> i < fst s -> j < snd s ->
  rep rm s sym (new_phase (Add i j v) wr ph) (meaning (Add i j v) t) (new_written (Add i j v) wr) (add w i j v free).
Proof.
  intros * H Hi Hj. unfold add. pose proof (rep_phase _ _ _ _ _ _ _ H) as P. destruct ph; cbn [new_phase].
  - destruct P as (-> & B & C & D). destruct H as [H1 H2 H3 H4 H5 H6 _]. split; auto.
    + intros i' j'. cbn [new_written meaning]. destruct (is_at i j i' j'); cbn [orb]; [discriminate|apply H6].
    + cbn [p_initialized p_eigen_matrix p_triplets]. split; [reflexivity|]. split; [|split].
      * intros i' j'. rewrite coeff_app, B, coeff_alt. cbn. unfold at_position, row_of, col_of, value_of, is_at. cbn.
        destruct (_ && _)%bool; lra.
      * intros i' j'. unfold stored. rewrite existsb_app. fold (stored (p_triplets w) i' j'). rewrite C. cbn.
        rewrite orb_false_r, orb_comm. reflexivity.
      * intros i' j' Hin. rewrite (D i' j' Hin). reflexivity.
  - destruct P as (-> & _). exact (rep_write _ _ _ Settled _ _ _ i j (fun u => u + v)%R free ltac:(discriminate) H Hi Hj).
  - destruct P as (-> & _). exact (rep_write _ _ _ Loose _ _ _ i j (fun u => u + v)%R free ltac:(discriminate) H Hi Hj).
Qed.
(** The phase after some writes. *)
Definition after_writes (known : bool) (ph : phase) : phase := match ph with Collecting => Collecting | p => after_write known p end.
Lemma after_writes_and : forall a b ph, after_writes b (after_writes a ph) = after_writes (a && b)%bool ph.
Proof. intros [|] [|] [| |]; reflexivity. Qed.
Lemma forallb_seq_S : forall f n, forallb f (seq 0 (S n)) = (forallb f (seq 0 n) && f n)%bool.
Proof. intros. rewrite seq_S, forallb_app. cbn [forallb Nat.add]. rewrite andb_true_r. reflexivity. Qed.
Lemma rep_row : forall rm s sym ph t wr i j (m : nat -> R) free c w, rep rm s sym ph t wr w -> i < fst s -> j + c <= snd s ->
  rep rm s sym (after_writes (forallb (fun l => wr i (j + l)) (seq 0 c)) ph)
    (fun i' j' => if in_block i j 1 c i' j' then (t i' j' + m (j' - j)%nat)%R else t i' j')
    (fun i' j' => in_block i j 1 c i' j' || wr i' j')%bool
    (fold_left (fun w l => add w i (j + l) (m l) (free l)) (seq 0 c) w).
Proof.
  intros rm s sym ph t wr i j m free. induction c as [|c IH]; intros w H Hi Hj.
  - cbn [seq fold_left forallb]. replace (after_writes true ph) with ph by (destruct ph; reflexivity). eapply rep_ext; [| |exact H]; intros i' j';
      replace (in_block i j 1 0 i' j') with false; try reflexivity; symmetry; unfold in_block;
      destruct (Nat.leb_spec j j'), (Nat.ltb_spec j' (j + 0)); cbn; rewrite ?andb_false_r; try reflexivity; lia.
  - rewrite forallb_seq_S. rewrite seq_S, fold_left_app. cbn [fold_left Nat.add].
    specialize (IH w H Hi ltac:(lia)). pose proof (rep_add _ _ _ _ _ _ _ i (j + c) (m c) (free c) IH Hi ltac:(lia)) as A.
    assert (NB : in_block i j 1 c i (j + c) = false).
    { unfold in_block. destruct (Nat.ltb_spec (j + c) (j + c)); [lia|]. apply andb_false_r. }
    assert (EP : new_phase (Add i (j + c) (m c)) (fun i' j' => in_block i j 1 c i' j' || wr i' j')%bool (after_writes (forallb (fun l => wr i (j + l)) (seq 0 c)) ph)
      = after_writes (forallb (fun l => wr i (j + l)) (seq 0 c) && wr i (j + c))%bool ph).
    { rewrite <- after_writes_and. cbn [new_phase]. rewrite NB. cbn [orb]. reflexivity. }
    rewrite EP in A. clear EP.
    assert (E : forall i' j', in_block i j 1 (S c) i' j' = (is_at i (j + c) i' j' || in_block i j 1 c i' j')%bool).
    { intros i' j'. unfold in_block, is_at. apply eq_true_iff_eq.
      rewrite orb_true_iff, !andb_true_iff, !Nat.leb_le, !Nat.ltb_lt, !Nat.eqb_eq. lia. }
    assert (D : forall i' j', is_at i (j + c) i' j' = true -> in_block i j 1 c i' j' = false /\ j' - j = c).
    { intros i' j' Q. unfold is_at in Q. apply andb_true_iff in Q. destruct Q as [_ Q]. apply Nat.eqb_eq in Q.
      split; [|lia]. unfold in_block. destruct (Nat.ltb_spec j' (j + c)); [lia|]. apply andb_false_r. }
    eapply rep_ext; [| |exact A]; intros i' j'; cbn [meaning new_written]; rewrite E.
    + destruct (is_at i (j + c) i' j') eqn:Q; cbn [orb]; [|reflexivity]. destruct (D _ _ Q) as [-> ->]. reflexivity.
    + rewrite orb_assoc. reflexivity.
Qed.
Lemma rep_add_block : forall rm s sym ph t wr i j (m : nat -> nat -> R) free c n w, rep rm s sym ph t wr w ->
  i + n <= fst s -> j + c <= snd s ->
  rep rm s sym (new_phase (AddBlock i j n c m) wr ph) (meaning (AddBlock i j n c m) t) (new_written (AddBlock i j n c m) wr)
    (add_block w i j n c m free).
Proof.
  intros rm s sym ph t wr i j m free c n w H Hi Hj.
  change (new_phase _ wr ph) with (after_writes (forallb (fun k => forallb (fun l => wr (i + k) (j + l)) (seq 0 c)) (seq 0 n)) ph).
  cbn [meaning new_written]. unfold add_block. revert Hi. induction n as [|n IH]; intros Hi.
  - cbn [seq fold_left forallb]. replace (after_writes true ph) with ph by (destruct ph; reflexivity). eapply rep_ext; [| |exact H]; intros i' j';
      replace (in_block i j 0 c i' j') with false; try reflexivity; symmetry; unfold in_block;
      destruct (Nat.leb_spec i i'), (Nat.ltb_spec i' (i + 0)); cbn; try reflexivity; lia.
  - rewrite forallb_seq_S. rewrite seq_S, fold_left_app. cbn [fold_left Nat.add]. specialize (IH ltac:(lia)).
    pose proof (rep_row _ _ _ _ _ _ (i + n) j (m n) (fun l => free (n * c + l)) c _ IH ltac:(lia) Hj) as A.
    assert (NB : forall l, in_block i j n c (i + n) (j + l) = false).
    { intros l. unfold in_block. destruct (Nat.ltb_spec (i + n) (i + n)); [lia|]. rewrite andb_false_r. reflexivity. }
    rewrite after_writes_and in A.
    replace (forallb (fun l => (in_block i j n c (i + n) (j + l) || wr (i + n) (j + l))%bool) (seq 0 c)) with (forallb (fun l => wr (i + n) (j + l)) (seq 0 c)) in A.
    2:{ clear - NB. induction (seq 0 c) as [|l ls IHl]; [reflexivity|]. cbn [forallb]. rewrite IHl, NB. reflexivity. }
    assert (E : forall i' j', in_block i j (S n) c i' j' = (in_block (i + n) j 1 c i' j' || in_block i j n c i' j')%bool).
    { intros i' j'. unfold in_block. apply eq_true_iff_eq.
      rewrite orb_true_iff, !andb_true_iff, !Nat.leb_le, !Nat.ltb_lt. lia. }
    assert (D : forall i' j', in_block (i + n) j 1 c i' j' = true -> in_block i j n c i' j' = false /\ i' - i = n).
    { intros i' j' Q. unfold in_block in Q. rewrite !andb_true_iff, !Nat.leb_le, !Nat.ltb_lt in Q.
      split; [|lia]. unfold in_block. destruct (Nat.ltb_spec i' (i + n)); [lia|]. rewrite andb_false_r. reflexivity. }
    eapply rep_ext; [| |exact A]; intros i' j'; cbn beta; rewrite E.
    + destruct (in_block (i + n) j 1 c i' j') eqn:Q; cbn [orb]; [|reflexivity]. destruct (D _ _ Q) as [-> ->]. reflexivity.
    + rewrite orb_assoc. reflexivity.
Qed.

(** Clearing. *)
Lemma rep_zero_where : forall rm s sym ph t wr w m' (p : nat -> nat -> bool),
  rep rm s sym ph t wr w -> ph <> Collecting ->
  rowMajor m' = rowMajor (p_eigen_matrix w) -> rows m' = rows (p_eigen_matrix w) -> cols m' = cols (p_eigen_matrix w) ->
  good m' -> (isCompressed (p_eigen_matrix w) -> isCompressed m') ->
  (forall i j, inside (p_eigen_matrix w) i j -> entry m' i j =
     match entry (p_eigen_matrix w) i j with Some y => Some (if p i j then 0%R else y) | None => None end) ->
  rep rm s sym ph (zero_where p t) wr (with_matrix w m').
Proof.
  intros * [H1 H2 H3 H4 H5 H6 H7] Hp E1 E2 E3 G C V. split; unfold rowSize, colSize in *; cbn [p_eigen_matrix with_matrix p_is_symmetric p_initialized];
    rewrite ?E1, ?E2, ?E3; auto.
  - intros i j Hw. unfold zero_where. rewrite (H6 i j Hw). destruct (p i j); reflexivity.
  - assert (P : holds (p_eigen_matrix w) t wr -> holds m' (zero_where p t) wr).
    { intros P i j Hin. unfold inside in Hin. rewrite E2, E3 in Hin. rewrite (V i j Hin), (P i j Hin). unfold zero_where.
      destruct (wr i j); reflexivity. }
    destruct ph; [congruence| |]; tauto.
Qed.
Lemma rep_clearRow : forall rm s sym ph t wr w i, rep rm s sym ph t wr w -> (rm = true \/ ph <> Loose) ->
  rep rm s sym (awake ph) (meaning (ClearRow i) t) wr (clearRow w i).
Proof.
  intros * H Hc. apply rep_ensure in H. unfold clearRow. set (w' := ensure_initialized w) in *.
  pose proof (rep_good _ _ _ _ _ _ _ H) as G. pose proof (rep_phase _ _ _ _ _ _ _ H) as P. cbv zeta.
  rewrite (rep_order _ _ _ _ _ _ _ H). destruct rm.
  - destruct (memset_spec _ i i G) as (A & B & C).
    apply (rep_zero_where _ _ _ _ _ _ _ _ (fun i' (_ : nat) => Nat.eqb i i') H); auto; [destruct ph; discriminate|].
    intros a b Hin. rewrite (C a b Hin). unfold outer_of. rewrite (rep_order _ _ _ _ _ _ _ H).
    replace (between i i a) with (i =? a); [reflexivity|]. unfold between. apply eq_true_iff_eq.
    rewrite andb_true_iff, Nat.eqb_eq, !Nat.leb_le. lia.
  - assert (Q : isCompressed (p_eigen_matrix w')) by (destruct Hc as [|Hc]; [discriminate|]; destruct ph; [| |congruence]; apply P).
    destruct (zero_inner_spec _ i G Q) as (A & B & C).
    apply (rep_zero_where _ _ _ _ _ _ _ _ (fun i' (_ : nat) => Nat.eqb i i') H); auto; [destruct ph; discriminate|].
    intros a b Hin. rewrite (C a b Hin). unfold inner_of. rewrite (rep_order _ _ _ _ _ _ _ H). reflexivity.
Qed.
Lemma rep_clearRows : forall rm s sym ph t wr w a b, rep rm s sym ph t wr w -> (rm = true \/ ph <> Loose) ->
  rep rm s sym (awake ph) (meaning (ClearRows a b) t) wr (clearRows w a b).
Proof.
  intros * H Hc. apply rep_ensure in H. unfold clearRows. set (w' := ensure_initialized w) in *.
  pose proof (rep_good _ _ _ _ _ _ _ H) as G. pose proof (rep_phase _ _ _ _ _ _ _ H) as P. cbv zeta.
  rewrite (rep_order _ _ _ _ _ _ _ H). destruct rm.
  - destruct (memset_spec _ a b G) as (A & B & C).
    apply (rep_zero_where _ _ _ _ _ _ _ _ (fun i' (_ : nat) => between a b i') H); auto; [destruct ph; discriminate|].
    intros i j Hin. rewrite (C i j Hin). unfold outer_of. rewrite (rep_order _ _ _ _ _ _ _ H). reflexivity.
  - assert (Q : isCompressed (p_eigen_matrix w')) by (destruct Hc as [|Hc]; [discriminate|]; destruct ph; [| |congruence]; apply P).
    destruct (zero_inner_range_spec _ a b G Q) as (A & B & C).
    apply (rep_zero_where _ _ _ _ _ _ _ _ (fun i' (_ : nat) => between a b i') H); auto; [destruct ph; discriminate|].
    intros i j Hin. rewrite (C i j Hin). unfold inner_of. rewrite (rep_order _ _ _ _ _ _ _ H). reflexivity.
Qed.
Lemma rep_clearCol : forall rm s sym ph t wr w i, rep rm s sym ph t wr w -> (rm = false \/ ph <> Loose) ->
  rep rm s sym (awake ph) (meaning (ClearCol i) t) wr (clearCol w i).
Proof.
  intros * H Hc. apply rep_ensure in H. unfold clearCol. set (w' := ensure_initialized w) in *.
  pose proof (rep_good _ _ _ _ _ _ _ H) as G. pose proof (rep_phase _ _ _ _ _ _ _ H) as P. cbv zeta.
  rewrite (rep_order _ _ _ _ _ _ _ H). destruct rm.
  - assert (Q : isCompressed (p_eigen_matrix w')) by (destruct Hc as [|Hc]; [discriminate|]; destruct ph; [| |congruence]; apply P).
    destruct (zero_inner_spec _ i G Q) as (A & B & C).
    apply (rep_zero_where _ _ _ _ _ _ _ _ (fun (_ : nat) j' => Nat.eqb i j') H); auto; [destruct ph; discriminate|].
    intros a b Hin. rewrite (C a b Hin). unfold inner_of. rewrite (rep_order _ _ _ _ _ _ _ H). reflexivity.
  - destruct (memset_spec _ i i G) as (A & B & C).
    apply (rep_zero_where _ _ _ _ _ _ _ _ (fun (_ : nat) j' => Nat.eqb i j') H); auto; [destruct ph; discriminate|].
    intros a b Hin. rewrite (C a b Hin). unfold outer_of. rewrite (rep_order _ _ _ _ _ _ _ H).
    replace (between i i b) with (i =? b); [reflexivity|]. unfold between. apply eq_true_iff_eq.
    rewrite andb_true_iff, Nat.eqb_eq, !Nat.leb_le. lia.
Qed.
Lemma rep_clearCols : forall rm s sym ph t wr w a b, rep rm s sym ph t wr w -> (rm = false \/ ph <> Loose) ->
  rep rm s sym (awake ph) (meaning (ClearCols a b) t) wr (clearCols w a b).
Proof.
  intros * H Hc. apply rep_ensure in H. unfold clearCols. set (w' := ensure_initialized w) in *.
  pose proof (rep_good _ _ _ _ _ _ _ H) as G. pose proof (rep_phase _ _ _ _ _ _ _ H) as P. cbv zeta.
  rewrite (rep_order _ _ _ _ _ _ _ H). destruct rm.
  - assert (Q : isCompressed (p_eigen_matrix w')) by (destruct Hc as [|Hc]; [discriminate|]; destruct ph; [| |congruence]; apply P).
    destruct (zero_inner_range_spec _ a b G Q) as (A & B & C).
    apply (rep_zero_where _ _ _ _ _ _ _ _ (fun (_ : nat) j' => between a b j') H); auto; [destruct ph; discriminate|].
    intros i j Hin. rewrite (C i j Hin). unfold inner_of. rewrite (rep_order _ _ _ _ _ _ _ H). reflexivity.
  - destruct (memset_spec _ a b G) as (A & B & C).
    apply (rep_zero_where _ _ _ _ _ _ _ _ (fun (_ : nat) j' => between a b j') H); auto; [destruct ph; discriminate|].
    intros i j Hin. rewrite (C i j Hin). unfold outer_of. rewrite (rep_order _ _ _ _ _ _ _ H). reflexivity.
Qed.

(** The shortcut for symmetric patterns does the same as the search in every inner vector. *)
Lemma shortcut_spec : forall m i, good m -> isCompressed m -> rows m = cols m -> i < outerSize m ->
  (forall a b y, inside m a b -> entry m a b = Some y -> y <> 0%R -> entry m b a <> None) ->
  vectors (with_vectors m (fold_left (fun l e => at_vector l (fst e) (zero_at i)) (firstn (nnz (vector m i)) (data (vector m i))) (vectors m)))
  = vectors (zero_inner m i).
Proof.
  intros m i G C Hs Hi Hsym. cbn [vectors with_vectors zero_inner]. change (firstn _ _) with (active (vector m i)).
  assert (HI : innerSize m = outerSize m) by (unfold innerSize, outerSize; destruct (rowMajor m); congruence).
  assert (HO : rows m = outerSize m) by (unfold outerSize; destruct (rowMajor m); congruence).
  assert (Hes : Forall (fun e : nat * R => fst e < length (vectors m)) (active (vector m i))).
  { rewrite (proj1 G), <- HI. apply (good_vector m i G Hi). }
  destruct (shortcut_fold (innerSize m) i _ (vectors m) Hes) as [A B].
  { intros k Hk. rewrite (proj1 G) in Hk. split; [apply (good_vector m k G Hk)|apply (compressed_vector m k G C Hk)]. }
  apply nth_ext with (d := {| data := []; nnz := 0 |}) (d' := {| data := []; nnz := 0 |}).
  { rewrite A, map_length. reflexivity. }
  intros k Hk. rewrite A in Hk. rewrite B by exact Hk. rewrite (nth_map_in _ _ {| data := []; nnz := 0 |}) by exact Hk.
  fold (vector m k). rewrite (proj1 G) in Hk. pose proof (good_vector m k G Hk) as F. pose proof (compressed_vector m k G C Hk) as FU.
  rewrite (zero_at_full (innerSize m)) by assumption.
  destruct (existsb _ _) eqn:E; [reflexivity|].
  assert (N : get (vector m i) k = None).
  { rewrite (get_assoc (innerSize m)) by (apply (good_vector m i G Hi)). apply assoc_none. intros e He Hk'.
    apply Bool.not_true_iff_false in E. apply E. apply existsb_exists. exists e. split; [exact He|]. apply Nat.eqb_eq. auto. }
  assert (N' : forall y, get (vector m k) i = Some y -> y = 0%R).
  { assert (In1 : inside m i k) by (unfold inside; lia). assert (In2 : inside m k i) by (unfold inside; lia).
    intros y Hy. destruct (Req_EM_T y 0) as [|Ny]; [assumption|exfalso].
    unfold entry, outer_of, inner_of in Hsym. destruct (rowMajor m).
    - exact (Hsym k i y In2 Hy Ny N).
    - exact (Hsym i k y In1 Hy Ny N). }
  symmetry. unfold modified, modify. rewrite (map_ext_in _ (fun e => e)), map_id; [destruct (vector m k); reflexivity|].
  intros e He. destruct (Nat.eqb_spec i (fst e)) as [Ei|]; [|reflexivity].
  rewrite (get_assoc (innerSize m)) in N' by exact F. rewrite active_full in N' by exact FU.
  apply In_nth with (d := (0, 0%R)) in He. destruct He as (p & Hp & <-). destruct F as (_ & F & _). rewrite active_full in F by exact FU.
  pose proof (assoc_at (data (vector m k)) p F Hp) as Ha. unfold index, value in Ha. rewrite <- Ei in Ha. apply N' in Ha.
  revert Ha. destruct (nth p (data (vector m k)) (0, 0%R)) as [k' x]. cbn [fst snd]. intros ->. reflexivity.
Qed.
Lemma rep_clearRowCol : forall rm s sym ph t wr w i, rep rm s sym ph t wr w -> ph <> Loose -> i < fst s -> i < snd s ->
  (sym = true -> fst s = snd s -> forall a b, t a b <> 0%R -> wr b a = true) ->
  rep rm s sym (awake ph) (meaning (ClearRowCol i) t) wr (clearRowCol w i).
Proof.
  intros * H Hc Hi1 Hi2 Hsym. apply rep_ensure in H. unfold clearRowCol. set (w' := ensure_initialized w) in *.
  pose proof (rep_good _ _ _ _ _ _ _ H) as G. pose proof (rep_phase _ _ _ _ _ _ _ H) as P. cbv zeta.
  assert (Q : isCompressed (p_eigen_matrix w') /\ holds (p_eigen_matrix w') t wr) by (destruct ph; [| |congruence]; split; apply P).
  destruct Q as [Q Hh]. destruct (memset_spec _ i i G) as (A & B & C). specialize (B Q).
  set (m := memset_vectors (p_eigen_matrix w') i i) in *.
  assert (Z : rep rm s sym (awake ph) (meaning (ClearRowCol i) t) wr (with_matrix w' (zero_inner m i))).
  { destruct (zero_inner_spec m i A B) as (A' & B' & C').
    apply (rep_zero_where _ _ _ _ _ _ _ _ (fun i' j' => (Nat.eqb i i' || Nat.eqb i j')%bool) H); auto; [destruct ph; discriminate|].
    intros a b Hin. rewrite (C' a b Hin), (C a b Hin). change (inner_of m a b) with (inner_of (p_eigen_matrix w') a b).
    destruct (entry (p_eigen_matrix w') a b) as [y|]; [|reflexivity]. f_equal.
    assert (E : forall k, between i i k = Nat.eqb i k).
    { intros k. unfold between. apply eq_true_iff_eq. rewrite andb_true_iff, Nat.eqb_eq, !Nat.leb_le. lia. }
    rewrite E. unfold inner_of, outer_of. destruct (rowMajor (p_eigen_matrix w'));
      destruct (Nat.eqb i a), (Nat.eqb i b); reflexivity. }
  destruct (p_is_symmetric w' && (rows m =? cols m))%bool eqn:E; [|exact Z].
  apply andb_true_iff in E. destruct E as [E1 E2]. apply Nat.eqb_eq in E2.
  replace (with_vectors m _) with (zero_inner m i); [exact Z|]. unfold zero_inner at 1. unfold with_vectors. f_equal.
  assert (Esq : fst s = snd s).
  { rewrite <- (rep_rows _ _ _ _ _ _ _ H), <- (rep_cols _ _ _ _ _ _ _ H). exact E2. }
  symmetry. apply (shortcut_spec m i A B E2).
  - pose proof (rep_rows _ _ _ _ _ _ _ H) as S1. pose proof (rep_cols _ _ _ _ _ _ _ H) as S2. unfold rowSize, colSize in S1, S2.
    change (rows m) with (rows (p_eigen_matrix w')) in *. change (cols m) with (cols (p_eigen_matrix w')) in *.
    unfold outerSize. change (rows m) with (rows (p_eigen_matrix w')). change (cols m) with (cols (p_eigen_matrix w')).
    destruct (rowMajor m); lia.
  - intros a b y Hin Hy Ny. assert (Hin' : inside m b a) by (unfold inside in *; rewrite E2 in *; lia).
    rewrite (C a b Hin), (Hh a b Hin) in Hy. rewrite (C b a Hin'), (Hh b a Hin').
    rewrite (rep_sym _ _ _ _ _ _ _ H) in E1. rewrite (Hsym E1 Esq a b); [discriminate|].
    destruct (wr a b); [|discriminate]. injection Hy as Hy. destruct (between i i _); [congruence|]. congruence.
Qed.
Lemma rep_set_symmetric : forall rm s sym ph t wr w b, rep rm s sym ph t wr w -> rep rm s b ph t wr (set_symmetric w b).
Proof. intros * [H1 H2 H3 H4 H5 H6 H7]. split; auto. Qed.

(** All histories. *)
Lemma phase_written : forall calls, snd (fold_left (fun s c => (new_phase c (snd s) (fst s), new_written c (snd s))) calls (Collecting, fun _ _ => false)) = written calls.
Proof.
  intros calls. unfold written. generalize (fun _ _ : nat => false) as wr. generalize Collecting as ph.
  induction calls as [|c calls IH]; intros ph wr; [reflexivity|]. cbn [fold_left fst snd]. apply IH.
Qed.
Lemma phase_app : forall calls c, phase_of (calls ++ [c]) = new_phase c (written calls) (phase_of calls).
Proof. intros calls c. unfold phase_of. rewrite fold_left_app. cbn [fold_left fst snd]. rewrite phase_written. reflexivity. Qed.
Theorem run_rep : forall rm s (h : list (call * (nat -> leftover))), legal rm s (map fst h) ->
  rep rm (size_of s (map fst h)) (declared_symmetric (map fst h)) (phase_of (map fst h)) (table_of (map fst h))
    (written (map fst h)) (run (new_wrapper rm (fst s) (snd s)) h).
Proof.
  intros rm s. induction h as [|[c f] h IH] using rev_ind; intros HL.
  - destruct s as [r c]. apply rep_new.
  - rewrite map_app in *. cbn [map fst] in *.
    assert (HL' : legal rm s (map fst h)).
    { intros before c' after E. apply (HL before c' (after ++ [c])). rewrite E, <- app_assoc. reflexivity. }
    specialize (IH HL'). destruct (HL (map fst h) c [] eq_refl) as [Hr Hc].
    unfold run. rewrite fold_left_app. cbn [fold_left]. fold (run (new_wrapper rm (fst s) (snd s)) h).
    rewrite phase_app. unfold size_of, declared_symmetric, table_of. unfold written at 2. rewrite !fold_left_app. cbn [fold_left].
    fold (written (map fst h)).
    fold (size_of s (map fst h)) (declared_symmetric (map fst h)) (table_of (map fst h)).
    set (w := run (new_wrapper rm (fst s) (snd s)) h) in *. unfold step. cbn [fst snd].
    destruct c; cbn [new_size in_range careful] in *.
    + exact (rep_resize _ _ _ _ _ _ _ _ _ IH).
    + exact (rep_clear _ _ _ _ _ _ _ IH).
    + exact (rep_set _ _ _ _ _ _ _ _ _ _ _ IH (proj1 Hr) (proj2 Hr)).
    + exact (rep_add _ _ _ _ _ _ _ _ _ _ _ IH (proj1 Hr) (proj2 Hr)).
    + exact (rep_add_block _ _ _ _ _ _ _ _ _ _ _ _ _ IH (proj1 Hr) (proj2 Hr)).
    + exact (rep_compress _ _ _ _ _ _ _ IH).
    + exact (rep_clearRow _ _ _ _ _ _ _ _ IH Hc).
    + exact (rep_clearRows _ _ _ _ _ _ _ _ _ IH Hc).
    + exact (rep_clearCol _ _ _ _ _ _ _ _ IH Hc).
    + exact (rep_clearCols _ _ _ _ _ _ _ _ _ IH Hc).
    + exact (rep_clearRowCol _ _ _ _ _ _ _ _ IH (proj1 Hc) (proj1 Hr) (proj2 Hr) (fun E _ => proj2 Hc E)).
    + exact (rep_set_symmetric _ _ _ _ _ _ _ _ IH).
Qed.
