(** C41, C42, C43: the sparse matrix wrapper. *)

From Coq Require Import Reals Lra Lia List Arith Bool.
From Verif Require Import SparseModel EigenMatrixModel EigenMatrixSpec EigenMatrixProofs EigenMatrixProofs2 EigenMatrixProofs3.
Import ListNotations.
Open Scope nat_scope.

(** C41.  After any legal sequence of calls on a new matrix, of either storage order, and whatever Eigen leaves in its
    free room: the size is as expected; once compressed, each entry is that of the table; before, this is so as soon as
    the phase where entries are collected is over, and in this phase (as documented) every entry reads 0. *)
Theorem C41_refines_partial : forall (rm : bool) (r c : nat) (h : list (call * (nat -> leftover))),
  legal rm (r, c) (map fst h) ->
  let w := run (new_wrapper rm r c) h in
  (rowSize w, colSize w) = size_of (r, c) (map fst h) /\
  forall i j, i < rowSize w -> j < colSize w ->
    element (compress w) i j = table_of (map fst h) i j /\
    element w i j = match phase_of (map fst h) with Collecting => 0%R | _ => table_of (map fst h) i j end.
Proof.
  intros rm r c h HL. pose proof (run_rep rm (r, c) h HL) as H. cbn [fst snd] in H. cbv zeta.
  set (w := run (new_wrapper rm r c) h) in *. split.
  { rewrite (rep_rows _ _ _ _ _ _ _ H), (rep_cols _ _ _ _ _ _ _ H). symmetry. apply surjective_pairing. }
  intros i j Hi Hj. pose proof (rep_compress _ _ _ _ _ _ _ H) as HC. split.
  - pose proof (rep_phase _ _ _ _ _ _ _ HC) as (_ & _ & P). apply (holds_coefficient _ _ _ _ _ P).
    + exact (rep_zero _ _ _ _ _ _ _ HC).
    + apply (rep_inside _ _ _ _ _ _ _ i j HC). rewrite <- (rep_rows _ _ _ _ _ _ _ H), <- (rep_cols _ _ _ _ _ _ _ H). auto.
  - pose proof (rep_phase _ _ _ _ _ _ _ H) as P. pose proof (rep_zero _ _ _ _ _ _ _ H) as Z. unfold element.
    assert (Hin : inside (p_eigen_matrix w) i j) by (split; assumption).
    destruct (phase_of (map fst h)).
    + destruct P as (_ & _ & _ & P). rewrite coefficient_entry, (P i j Hin). reflexivity.
    + apply (holds_coefficient _ _ _ _ _ (proj2 (proj2 P)) Z Hin).
    + apply (holds_coefficient _ _ _ _ _ (proj2 P) Z Hin).
Qed.
Print Assumptions C41_refines_partial.

Definition nothing_left : nat -> leftover := fun _ _ => [].
Definition example_calls : list call :=
  [Add 0 1 2%R; Add 1 0 2%R; Add 0 1 3%R; AddBlock 0 0 2 2 (fun _ _ => 1%R); SetSymmetric true; Compress; ClearRowCol 0; Set_ 1 1 7%R].
(** A legal history with duplicates, a block, the symmetric shortcut and an insertion. *)
Example C41_example : legal true (3, 3) example_calls /\ table_of example_calls 1 1 = 7%R /\ table_of example_calls 0 1 = 0%R.
Proof.
  split; [|split; reflexivity]. intros before c after E. unfold example_calls in E.
  repeat (destruct before as [|? before]; cbn [app] in E;
    [injection E as <- _; cbn; try (split; [lia|trivial])|injection E as <- E]); try (split; exact I).
  - split; [discriminate|]. intros _ i j Ht.
    destruct i as [|[|i]], j as [|[|j]]; try reflexivity; exfalso; apply Ht; cbn; try reflexivity;
      rewrite ?andb_false_r; reflexivity.
  - destruct before; discriminate.
Qed.

(** The claim fails without care: in a matrix stored by rows, with entries (1,0) and (1,1), a new entry at (0,6) makes
    Eigen (3.3) move row 1 and leave a stale index in the free room of row 0; clearing column 6 then searches the
    free room too, and misses the entry.  This for every stale index less than 6 left in the one free place. *)
Definition missed_calls (v : R) : list call := [Add 1 0 1%R; Add 1 1 1%R; Compress; Add 0 6 v; ClearCol 6; Compress].
Theorem C41_uncompressed_refuted : forall (v : R) (stale : nat * R), v <> 0%R -> fst stale < 6 ->
  let h := combine (missed_calls v) (repeat (fun _ k => if Nat.eqb k 0 then [stale] else []) 6) in
  (forall before c after, map fst h = before ++ c :: after -> in_range (size_of (2, 7) before) c) /\
  table_of (map fst h) 0 6 = 0%R /\ element (run (new_wrapper true 2 7) h) 0 6 = v.
Proof.
  intros v [k x] Hv Hk h. split; [|split].
  - intros before c after E. cbn in E.
    repeat (destruct before as [|? before]; cbn [app] in E; [injection E as <- _; cbn; try lia; trivial|injection E as <- E]).
    destruct before; discriminate.
  - reflexivity.
  - cbn [fst] in Hk. do 6 (destruct k as [|k]; [cbn; lra|]). lia.
Qed.
Print Assumptions C41_uncompressed_refuted.

Lemma valid_good : forall m, valid m <-> good m.
Proof.
  intros m. split.
  - intros [H1 H2]. apply good_intro; [exact H1|]. intros k Hk. exact (H2 k Hk).
  - intros G. split; [apply G|]. intros k Hk. exact (good_vector m k G Hk).
Qed.

(** C42.  Refuted: a wrapper made over an existing matrix forgets all of it at the first write, clearing or compression,
    although it reads it well before.  For every matrix, every write. *)
Theorem C42_refuted : forall (m : sparse) (i j : nat) (v : R) (free : leftover), valid m -> i < rows m -> j < cols m ->
  forall i' j', i' < rows m -> j' < cols m ->
  element (wrap m) i' j' = coefficient m i' j' /\
  element (set (wrap m) i j v free) i' j' = (if is_at i j i' j' then v else 0%R) /\
  element (compress (wrap m)) i' j' = 0%R.
Proof.
  intros m i j v free _ Hi Hj i' j' Hi' Hj'. split; [reflexivity|].
  destruct (setFromTriplets_spec m []) as (A & _ & C). split.
  - unfold set, element. cbn [ensure_initialized wrap p_initialized initialize with_matrix p_eigen_matrix p_triplets].
    destruct (coeffRef_spec (setFromTriplets m []) i j (fun _ => v) free A (conj Hi Hj)) as [_ B].
    rewrite coefficient_entry, (B i' j' (conj Hi' Hj')). destruct (is_at i j i' j'); [reflexivity|].
    rewrite (C i' j' (conj Hi' Hj')). reflexivity.
  - unfold compress, element. cbn [wrap p_initialized initialize p_eigen_matrix p_triplets].
    rewrite coefficient_entry, (C i' j' (conj Hi' Hj')). reflexivity.
Qed.
Print Assumptions C42_refuted.
Definition diagonal2 : sparse :=
  {| rowMajor := true; rows := 2; cols := 2; vectors := [{| data := [(0, 3%R)]; nnz := 1 |}; {| data := [(1, 4%R)]; nnz := 1 |}] |}.
Example C42_example : valid diagonal2 /\ coefficient diagonal2 0 0 = 3%R /\
  element (set (wrap diagonal2) 1 1 5%R (fun _ => [])) 0 0 = 0%R.
Proof.
  assert (G : valid diagonal2) by (apply valid_good; split; [reflexivity|]; repeat constructor; cbn; lia).
  split; [exact G|]. split; [reflexivity|].
  exact (proj1 (proj2 (C42_refuted diagonal2 1 1 5%R (fun _ => []) G ltac:(cbn; lia) ltac:(cbn; lia) 0 0 ltac:(cbn; lia) ltac:(cbn; lia)))).
Qed.

(** C43.  On any compressed matrix: each clearing call zeroes the designated entries and changes no other, and keeps the
    matrix compressed; for both storage orders. *)
Definition view (m : sparse) (i j : nat) : option R :=
  if (Nat.ltb i (rows m) && Nat.ltb j (cols m))%bool then entry m i j else None.
Lemma view_inside : forall m i j, inside m i j -> view m i j = entry m i j.
Proof.
  intros m i j [H1 H2]. unfold view. apply Nat.ltb_lt in H1, H2. rewrite H1, H2. reflexivity.
Qed.
Definition values (w : wrapper) : table := fun i j => match view (p_eigen_matrix w) i j with Some x => x | None => 0%R end.
Definition present (w : wrapper) (i j : nat) : bool := match view (p_eigen_matrix w) i j with Some _ => true | None => false end.
Lemma ready_rep : forall w, ready w ->
  rep (rowMajor (p_eigen_matrix w)) (rowSize w, colSize w) (p_is_symmetric w) Settled (values w) (present w) w.
Proof.
  intros w (H1 & H2 & H3). split; auto.
  - apply valid_good. exact H2.
  - intros i j. unfold values, present. destruct (view _ _ _); [discriminate|reflexivity].
  - split; [exact H1|]. split; [exact H3|]. intros i j Hin. unfold values, present. rewrite view_inside by exact Hin.
    destruct (entry _ _ _); reflexivity.
Qed.
Lemma rep_ready : forall rm s sym t wr w, rep rm s sym Settled t wr w -> ready w.
Proof. intros * [H1 H2 H3 H4 H5 H6 (A & B & C)]. split; [exact A|]. split; [apply valid_good; exact H5|exact B]. Qed.
Lemma rep_only_zeroed : forall w w' p,
  rep (rowMajor (p_eigen_matrix w)) (rowSize w, colSize w) (p_is_symmetric w) Settled (zero_where p (values w)) (present w) w' ->
  only_zeroed p w w'.
Proof.
  intros w w' p H. split; [exact (rep_ready _ _ _ _ _ _ H)|]. destruct H as [H1 H2 H3 H4 H5 H6 (A & B & C)].
  split; [exact H2|]. split; [exact H3|]. intros i j Hi Hj. unfold element. rewrite !coefficient_entry.
  rewrite C by (unfold inside; unfold rowSize, colSize in *; cbn [fst snd] in *; lia). unfold zero_where, values, present.
  rewrite view_inside by (split; assumption).
  destruct (entry (p_eigen_matrix w) i j); destruct (p i j); reflexivity.
Qed.
Lemma stored_entry : forall m i j, good m -> inside m i j -> (stored_in m i j <-> entry m i j <> None).
Proof.
  intros m i j G Hin. unfold stored_in, entry. rewrite (get_assoc (innerSize m)) by (apply good_vector; [exact G|apply inside_outer; exact Hin]).
  change (coefficients m (outer_of m i j)) with (active (vector m (outer_of m i j))). rewrite <- assoc_none. split.
  - intros H N. apply in_map_iff in H. destruct H as (e & He & Hi). exact (N e Hi He).
  - intros H. destruct (in_dec Nat.eq_dec (inner_of m i j) (map fst (active (vector m (outer_of m i j))))) as [|N]; [assumption|].
    exfalso. apply H. intros e He Hk. apply N. rewrite <- Hk. apply in_map. exact He.
Qed.
Theorem C43_clear_compressed : forall (w : wrapper), ready w ->
  (forall r, only_zeroed (fun i _ => Nat.eqb r i) w (clearRow w r)) /\
  (forall a b, only_zeroed (fun i _ => between a b i) w (clearRows w a b)) /\
  (forall c, only_zeroed (fun _ j => Nat.eqb c j) w (clearCol w c)) /\
  (forall a b, only_zeroed (fun _ j => between a b j) w (clearCols w a b)) /\
  (forall k, k < rowSize w -> k < colSize w ->
     (p_is_symmetric w = true -> rowSize w = colSize w -> forall i j, i < rowSize w -> j < colSize w ->
        element w i j <> 0%R -> stored_in (p_eigen_matrix w) j i) ->
     only_zeroed (fun i j => Nat.eqb k i || Nat.eqb k j)%bool w (clearRowCol w k)).
Proof.
  intros w R. pose proof (ready_rep w R) as H. assert (N : Settled <> Loose) by discriminate.
  split; [|split; [|split; [|split]]].
  - intros r. apply rep_only_zeroed. exact (rep_clearRow _ _ _ _ _ _ _ r H (or_intror N)).
  - intros a b. apply rep_only_zeroed. exact (rep_clearRows _ _ _ _ _ _ _ a b H (or_intror N)).
  - intros c. apply rep_only_zeroed. exact (rep_clearCol _ _ _ _ _ _ _ c H (or_intror N)).
  - intros a b. apply rep_only_zeroed. exact (rep_clearCols _ _ _ _ _ _ _ a b H (or_intror N)).
  - intros k Hk1 Hk2 Hs. apply rep_only_zeroed.
    apply (rep_clearRowCol _ _ _ _ _ _ _ k H N Hk1 Hk2). cbn [fst snd].
    intros Esym Esq a b Hv. unfold values, view in Hv. unfold present.
    destruct (_ && _)%bool eqn:E in Hv; [|congruence]. apply andb_true_iff in E. destruct E as [E1 E2].
    apply Nat.ltb_lt in E1, E2. unfold rowSize, colSize in *.
    assert (Hin : inside (p_eigen_matrix w) b a) by (unfold inside; lia).
    rewrite view_inside by exact Hin. destruct R as (_ & G & _). apply valid_good in G.
    pose proof (proj1 (stored_entry _ b a G Hin)) as S. destruct (entry (p_eigen_matrix w) b a); [reflexivity|].
    exfalso. apply S; [|reflexivity]. apply (Hs Esym Esq a b E1 E2). unfold element. rewrite coefficient_entry. exact Hv.
Qed.
Print Assumptions C43_clear_compressed.
(** The condition of the shortcut holds when the matrix is symmetric, as the user declared. *)
Theorem C43_symmetric_values : forall (w : wrapper), ready w -> rowSize w = colSize w ->
  (forall i j, i < rowSize w -> j < colSize w -> element w i j = element w j i) ->
  forall i j, i < rowSize w -> j < colSize w -> element w i j <> 0%R -> stored_in (p_eigen_matrix w) j i.
Proof.
  intros w (_ & V & _) Sq Hs i j Hi Hj Hv. apply valid_good in V. unfold rowSize, colSize in *.
  assert (Hin : inside (p_eigen_matrix w) j i) by (unfold inside; lia). apply (stored_entry _ j i V Hin).
  rewrite (Hs i j Hi Hj) in Hv. unfold element in Hv. rewrite coefficient_entry in Hv. destruct (entry _ j i); [discriminate|congruence].
Qed.
Print Assumptions C43_symmetric_values.
(** Without the condition the shortcut misses entries: declared symmetric, but only (1, 0) is stored. *)
Definition lower_only : wrapper := run (new_wrapper true 2 2) (combine [SetSymmetric true; Add 1 0 5%R; Compress] (repeat nothing_left 3)).
Theorem C43_not_symmetric_refuted : ready lower_only /\ element (clearRowCol lower_only 0) 1 0 = 5%R.
Proof.
  split.
  - split; [reflexivity|]. split.
    + split; [reflexivity|]. intros k Hk. destruct k as [|[|k]]; [| |cbn in Hk; lia]; cbn; repeat constructor; lia.
    + repeat constructor.
  - cbn. lra.
Qed.
Print Assumptions C43_not_symmetric_refuted.
(** The hypotheses are met: a symmetric matrix with four entries, whose row and column 1 are cleared. *)
Definition small_symmetric : wrapper :=
  run (new_wrapper false 3 3) (combine [SetSymmetric true; Add 0 1 2%R; Add 1 0 2%R; Add 2 2 4%R; Compress] (repeat nothing_left 5)).
Example C43_example : ready small_symmetric /\ p_is_symmetric small_symmetric = true /\ element small_symmetric 0 1 = 2%R /\
  element (clearRowCol small_symmetric 1) 0 1 = 0%R /\ element (clearRowCol small_symmetric 1) 2 2 = 4%R.
Proof.
  split.
  - split; [reflexivity|]. split.
    + split; [reflexivity|]. intros k Hk. destruct k as [|[|[|k]]]; [| | |cbn in Hk; lia]; cbn; repeat constructor; lia.
    + repeat constructor.
  - cbn. repeat split; lra.
Qed.
