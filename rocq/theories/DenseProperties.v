(** Property C91: the wrappers of dense matrices and of vectors, in every program that makes and uses them. *)

From Coq Require Import Reals Lra Lia List Arith Bool.
From Verif Require Import EigenMatrixModel EigenMatrixSpec EigenMatrixProperties DenseModel DenseSpec DenseProofs.
Import ListNotations.
Open Scope nat_scope.

(** Programs with matrices: shape = (stored by rows, rows, columns), content = the numbers. *)
Definition matrix_command := command call (bool * nat * nat) (nat -> nat -> R).
Definition run_matrices (p : list matrix_command) : option (world dense) := perform dense_call filled blank nothing_yet p.
(** Programs with vectors. *)
Definition vector_command := command vcall nat (nat -> R).
Definition run_vectors (p : list vector_command) : option (world (list cell)) := perform v_call v_filled v_blank nothing_yet p.

Lemma sound_calls : forall m o m', sound m -> dense_call m o = Some m' -> sound m'.
Proof. intros m o m' H E. apply (call_correct m o m' H E). Qed.

(** A wrapper by copy shows the matrix as it was when the wrapper was made, changed by the calls of this wrapper only. *)
Theorem C91_copy : forall (p1 p2 : list matrix_command) (k : nat) (w : world dense),
  run_matrices (p1 ++ WrapCopy k :: p2) = Some w ->
  let n := length (references p1) in
  exists w1 m m', run_matrices p1 = Some w1 /\ nth_error (mine w1) k = Some m /\ seen w n = Some m' /\
    shows m' (size_of (dense_size m) (calls_through n p2)) (table_after (dense_element m) (calls_through n p2)).
Proof.
  intros p1 p2 k w E n. apply copy_history in E as (w1 & m & m' & E1 & Em & A & B). exists w1, m, m'.
  repeat (split; [assumption|]). apply history_correct; [|exact A].
  exact (invariant dense_call filled blank sound filled_sound blank_sound sound_calls p1 w1 E1 k m Em).
Qed.
Print Assumptions C91_copy.

(** A matrix of the user, and every wrapper by reference to it, show the numbers the user gave, changed in order by the
    calls of the user and of all the wrappers that refer to it, and by no other. *)
Theorem C91_own_matrix : forall (p1 p2 : list matrix_command) (rm : bool) (r c : nat) (f : nat -> nat -> R) (w : world dense),
  run_matrices (p1 ++ Declare (rm, r, c) f :: p2) = Some w ->
  let k := declared p1 in
  let calls := calls_on (references p1) k p2 in
  exists m, nth_error (mine w) k = Some m /\ shows m (size_of (r, c) calls) (table_after (known f) calls).
Proof.
  intros p1 p2 rm r c f w E k calls. apply declared_history in E as (m & A & B). exists m. split; [exact B|].
  pose proof (history_correct _ _ _ (filled_sound (rm, r, c) f) A) as (_ & _ & [S1 S2]). change (dense_size (filled (rm, r, c) f)) with (r, c) in *.
  split; [exact S1|]. intros i j Hi Hj. rewrite (S2 i j Hi Hj). apply (table_ext _ _ _ (r, c)); [|assumption|assumption].
  intros i' j' Hi' Hj'. apply filled_element; assumption.
Qed.
Print Assumptions C91_own_matrix.
Theorem C91_reference : forall (p1 p2 : list matrix_command) (k : nat) (w : world dense),
  run_matrices (p1 ++ WrapReference k :: p2) = Some w ->
  exists m, seen w (length (references p1)) = Some m /\ nth_error (mine w) k = Some m.
Proof. intros p1 p2 k w E. exact (reference_seen _ _ _ p1 k p2 w E). Qed.
Print Assumptions C91_reference.

(** A wrapper made with a size shows unknown numbers, changed by the calls of this wrapper. *)
Theorem C91_new : forall (p1 p2 : list matrix_command) (rm : bool) (r c : nat) (w : world dense),
  run_matrices (p1 ++ WrapNew (rm, r, c) :: p2) = Some w ->
  let n := length (references p1) in
  exists m, seen w n = Some m /\ shows m (size_of (r, c) (calls_through n p2)) (table_after unknown (calls_through n p2)).
Proof.
  intros p1 p2 rm r c w E n. apply new_history in E as (m & A & B). exists m. split; [exact B|].
  pose proof (history_correct _ _ _ (blank_sound (rm, r, c)) A) as (_ & _ & [S1 S2]). change (dense_size (blank (rm, r, c))) with (r, c) in *.
  split; [exact S1|]. intros i j Hi Hj. rewrite (S2 i j Hi Hj). apply (table_ext _ _ _ (r, c)); [|assumption|assumption].
  intros i' j' _ _. apply blank_element.
Qed.
Print Assumptions C91_new.

(** From a clear or a resize on, everything is known, and nothing that was there before matters. *)
Lemma known_effect : forall c t u, (forall i j, t i j = known u i j) -> forall i j, effect c t i j = known (meaning c u) i j.
Proof.
  intros c t u H i j. destruct c; cbn [effect meaning]; unfold known, zero_where in *; try reflexivity; try (rewrite H; clear H);
    repeat match goal with |- context [if ?b then _ else _] => destruct b end; reflexivity.
Qed.
Lemma known_after : forall calls t u, (forall i j, t i j = known u i j) ->
  forall i j, table_after t calls i j = known (fold_left (fun t c => meaning c t) calls u) i j.
Proof.
  unfold table_after. induction calls as [|c calls IH]; intros t u H i j; [apply H|]. cbn [fold_left]. apply IH. apply known_effect. exact H.
Qed.
Theorem C91_cleared : forall (t : partial_table) (before after : list call) (zero : call),
  zero = Clear \/ (exists r c, zero = Resize r c) ->
  forall i j, table_after t (before ++ zero :: after) i j = Some (table_of after i j).
Proof.
  intros t before after zero HZ i j. unfold table_after. rewrite fold_left_app. cbn [fold_left].
  apply (known_after after _ all_zero). intros i' j'. destruct HZ as [->|(r & c & ->)]; reflexivity.
Qed.
Print Assumptions C91_cleared.

(** Calls in range always succeed, through wrappers of the three kinds (without which the theorems above say nothing). *)
Lemma owned_run : forall {obj op shape content} (apply : obj -> op -> option obj) (make : shape -> content -> obj) allocate calls l m m',
  calls_of apply m calls = Some m' ->
  perform apply make allocate {| mine := l; wrappers := [Own m] |} (map (Through 0) calls) = Some {| mine := l; wrappers := [Own m'] |}.
Proof.
  intros obj op shape content apply make allocate calls l. induction calls as [|c calls IH]; intros m m' E; cbn in *; [congruence|].
  apply bind_some in E as (m1 & E1 & E). rewrite E1. cbn. apply IH. exact E.
Qed.
Lemma shared_run : forall {obj op shape content} (apply : obj -> op -> option obj) (make : shape -> content -> obj) allocate calls m m',
  calls_of apply m calls = Some m' ->
  perform apply make allocate {| mine := [m]; wrappers := [Reference 0] |} (map (Through 0) calls) = Some {| mine := [m']; wrappers := [Reference 0] |}.
Proof.
  intros obj op shape content apply make allocate calls. induction calls as [|c calls IH]; intros m m' E; cbn in *; [congruence|].
  apply bind_some in E as (m1 & E1 & E). unfold act. cbn. rewrite E1. cbn. apply IH. exact E.
Qed.
Definition kinds (s : bool * nat * nat) (f : nat -> nat -> R) : list (list matrix_command) :=
  [[WrapNew s]; [Declare s f; WrapCopy 0]; [Declare s f; WrapReference 0]].
Theorem C91_in_range : forall (rm : bool) (r c : nat) (f : nat -> nat -> R) (start : list matrix_command) (calls : list call),
  In start (kinds (rm, r, c) f) -> calls_in_range (r, c) calls ->
  exists w m, run_matrices (start ++ map (Through 0) calls) = Some w /\ seen w 0 = Some m /\ dense_size m = size_of (r, c) calls.
Proof.
  intros rm r c f start calls Hs HR. unfold run_matrices. cbn in Hs.
  destruct (history_works calls (blank (rm, r, c)) (blank_sound _) HR) as (mb & Eb).
  destruct (history_works calls (filled (rm, r, c) f) (filled_sound _ _) HR) as (mf & Ef).
  pose proof (history_correct _ _ _ (blank_sound (rm, r, c)) Eb) as (_ & _ & [Sb _]).
  pose proof (history_correct _ _ _ (filled_sound (rm, r, c) f) Ef) as (_ & _ & [Sf _]).
  destruct Hs as [<-|[<-|[<-|[]]]]; cbn [perform bind execute mine wrappers nothing_yet app nth_error].
  - exists {| mine := []; wrappers := [Own mb] |}, mb. split; [apply owned_run; exact Eb|]. split; [reflexivity|exact Sb].
  - eexists _, mf. split; [apply owned_run; exact Ef|]. split; [reflexivity|exact Sf].
  - exists {| mine := [mf]; wrappers := [Reference 0] |}, mf. split; [apply shared_run; exact Ef|]. split; [reflexivity|exact Sf].
Qed.
Print Assumptions C91_in_range.

(** The dense and the sparse wrapper, given the same calls, hold the same matrix (the sparse one when compressed; the calls
    careful in the sense of C41). *)
Lemma legal_in_range : forall rm s calls, legal rm s calls -> calls_in_range s calls.
Proof. intros rm s calls H before c after E. exact (proj1 (H before c after E)). Qed.
Theorem C91_dense_and_sparse : forall (rm rm' : bool) (r c : nat) (h : list (call * (nat -> leftover))),
  legal rm (r, c) (map fst h) ->
  exists w m, run_matrices (WrapNew (rm', r, c) :: map (Through 0) (Clear :: map fst h)) = Some w /\ seen w 0 = Some m /\
    let sparse := compress (run (new_wrapper rm r c) h) in
    dense_size m = (rowSize sparse, colSize sparse) /\
    forall i j, i < rowSize sparse -> j < colSize sparse -> dense_element m i j = Some (element sparse i j).
Proof.
  intros rm rm' r c h HL. destruct (C41_refines_partial rm r c h HL) as [HS HE].
  assert (HR : calls_in_range (r, c) (Clear :: map fst h)).
  { intros before d after E. destruct before as [|b before]; cbn in E.
    - injection E as <- _. exact I.
    - injection E as <- E. exact (legal_in_range rm _ _ HL before d after E). }
  destruct (history_works (Clear :: map fst h) (blank (rm', r, c)) (blank_sound _) HR) as (m & Em).
  pose proof (history_correct _ _ _ (blank_sound (rm', r, c)) Em) as (_ & _ & [S1 S2]).
  exists {| mine := []; wrappers := [Own m] |}, m. split; [|split; [reflexivity|]].
  { exact (owned_run dense_call filled blank (Clear :: map fst h) [] (blank (rm', r, c)) m Em). }
  cbv zeta in *. set (w := run (new_wrapper rm r c) h) in *.
  assert (HC : (rowSize (compress w), colSize (compress w)) = (rowSize w, colSize w)).
  { unfold compress, rowSize, colSize. destruct (p_initialized w); reflexivity. }
  change (size_of (dense_size (blank (rm', r, c))) (Clear :: map fst h)) with (size_of (r, c) (map fst h)) in S1, S2.
  rewrite S1, HC, HS. split; [reflexivity|]. injection HC as HC1 HC2. rewrite HC1, HC2. intros i j Hi Hj.
  rewrite <- HS in S2. rewrite (S2 i j Hi Hj). rewrite (proj1 (HE i j Hi Hj)).
  exact (C91_cleared (dense_element (blank (rm', r, c))) [] (map fst h) Clear (or_introl eq_refl) i j).
Qed.
Print Assumptions C91_dense_and_sparse.

(** A new matrix is not a zero matrix: whatever its size, no entry of it can be relied upon before it is written (and adding
    to it does not help); the code of Caribou that makes one clears it first. *)
Theorem C91_new_unknown : forall (rm : bool) (r c i j : nat) (v : R), i < r -> j < c ->
  exists w m, run_matrices [WrapNew (rm, r, c); Through 0 (Add i j v)] = Some w /\ seen w 0 = Some m /\ dense_element m i j = None.
Proof.
  intros rm r c i j v Hi Hj.
  destruct (C91_in_range rm r c (fun _ _ => 0%R) [WrapNew (rm, r, c)] [Add i j v] (or_introl eq_refl)) as (w & m & E & S1 & S2).
  { intros before d after E. destruct before as [|b [|]]; [|discriminate|discriminate]. injection E as <- _. split; assumption. }
  exists w, m. split; [exact E|]. split; [exact S1|].
  destruct (C91_new [] [Through 0 (Add i j v)] rm r c w E) as (m2 & T1 & T2). cbn in T1. rewrite S1 in T1. injection T1 as <-.
  destruct T2 as [_ T2]. rewrite (T2 i j Hi Hj). cbn. unfold is_at. rewrite !Nat.eqb_refl. reflexivity.
Qed.
Print Assumptions C91_new_unknown.

(** The same for vectors. *)
Theorem C91_vector_copy : forall (p1 p2 : list vector_command) (k : nat) (w : world (list cell)),
  run_vectors (p1 ++ WrapCopy k :: p2) = Some w ->
  let n := length (references p1) in
  exists w1 x x', run_vectors p1 = Some w1 /\ nth_error (mine w1) k = Some x /\ seen w n = Some x' /\
    v_shows x' (v_size_after (v_size x) (calls_through n p2)) (v_after (v_element x) (calls_through n p2)).
Proof.
  intros p1 p2 k w E n. apply copy_history in E as (w1 & x & x' & E1 & Em & A & B). exists w1, x, x'.
  repeat (split; [assumption|]). apply v_history_correct. exact A.
Qed.
Print Assumptions C91_vector_copy.
Lemma v_filled_element : forall n f i, i < n -> v_element (v_filled n f) i = Some (f i).
Proof.
  intros n f i Hi. unfold v_element, v_filled. rewrite nth_indep with (d' := Some (f 0)) by (rewrite map_length, seq_length; exact Hi).
  rewrite (map_nth (fun i => Some (f i)) (seq 0 n) 0 i), seq_nth by exact Hi. reflexivity.
Qed.
Theorem C91_vector_own : forall (p1 p2 : list vector_command) (d : nat) (f : nat -> R) (w : world (list cell)),
  run_vectors (p1 ++ Declare d f :: p2) = Some w ->
  let k := declared p1 in
  let calls := calls_on (references p1) k p2 in
  exists x, nth_error (mine w) k = Some x /\ v_shows x (v_size_after d calls) (v_after (fun i => Some (f i)) calls).
Proof.
  intros p1 p2 d f w E k calls. apply declared_history in E as (x & A & B). exists x. split; [exact B|].
  pose proof (v_history_correct _ _ _ A) as [S1 S2].
  assert (L : v_size (v_filled d f) = d) by (unfold v_size, v_filled; rewrite map_length, seq_length; reflexivity).
  rewrite L in S1, S2. split; [exact S1|]. intros i Hi. rewrite (S2 i Hi). apply (v_ext _ _ _ d); [|exact Hi].
  intros i' Hi'. apply v_filled_element. exact Hi'.
Qed.
Print Assumptions C91_vector_own.
Theorem C91_vector_reference : forall (p1 p2 : list vector_command) (k : nat) (w : world (list cell)),
  run_vectors (p1 ++ WrapReference k :: p2) = Some w ->
  exists x, seen w (length (references p1)) = Some x /\ nth_error (mine w) k = Some x.
Proof. intros p1 p2 k w E. exact (reference_seen _ _ _ p1 k p2 w E). Qed.
Print Assumptions C91_vector_reference.
Lemma v_blank_element : forall n i, v_element (v_blank n) i = None.
Proof. induction n; destruct i; cbn; auto. apply IHn. Qed.
Theorem C91_vector_new : forall (p1 p2 : list vector_command) (d : nat) (w : world (list cell)),
  run_vectors (p1 ++ WrapNew d :: p2) = Some w ->
  let n := length (references p1) in
  exists x, seen w n = Some x /\ v_shows x (v_size_after d (calls_through n p2)) (v_after (fun _ => None) (calls_through n p2)).
Proof.
  intros p1 p2 d w E n. apply new_history in E as (x & A & B). exists x. split; [exact B|].
  pose proof (v_history_correct _ _ _ A) as [S1 S2].
  assert (L : v_size (v_blank d) = d) by apply repeat_length. rewrite L in S1, S2. split; [exact S1|]. intros i Hi. rewrite (S2 i Hi).
  apply (v_ext _ _ _ d); [|exact Hi]. intros i' _. apply v_blank_element.
Qed.
Print Assumptions C91_vector_new.
(** Calls in range succeed; a resize or a clear makes every element zero whatever it was; a new vector is not zero. *)
Theorem C91_vector_in_range : forall (d : nat) (f : nat -> R) (start : list vector_command) (calls : list vcall),
  In start [[WrapNew d]; [Declare d f; WrapCopy 0]; [Declare d f; WrapReference 0]] -> v_in_range d calls ->
  exists w x, run_vectors (start ++ map (Through 0) calls) = Some w /\ seen w 0 = Some x /\ v_size x = v_size_after d calls.
Proof.
  intros d f start calls Hs HR. unfold run_vectors. cbn in Hs.
  assert (Lb : v_size (v_blank d) = d) by apply repeat_length.
  assert (Lf : v_size (v_filled d f) = d) by (unfold v_size, v_filled; rewrite map_length, seq_length; reflexivity).
  destruct (v_history_works calls (v_blank d)) as (xb & Eb); [rewrite Lb; exact HR|].
  destruct (v_history_works calls (v_filled d f)) as (xf & Ef); [rewrite Lf; exact HR|].
  pose proof (v_history_correct _ _ _ Eb) as [Sb _]. rewrite Lb in Sb. pose proof (v_history_correct _ _ _ Ef) as [Sf _]. rewrite Lf in Sf.
  destruct Hs as [<-|[<-|[<-|[]]]]; cbn [perform bind execute mine wrappers nothing_yet app nth_error].
  - exists {| mine := []; wrappers := [Own xb] |}, xb. split; [apply owned_run; exact Eb|]. split; [reflexivity|exact Sb].
  - eexists _, xf. split; [apply owned_run; exact Ef|]. split; [reflexivity|exact Sf].
  - exists {| mine := [xf]; wrappers := [Reference 0] |}, xf. split; [apply shared_run; exact Ef|]. split; [reflexivity|exact Sf].
Qed.
Print Assumptions C91_vector_in_range.
Theorem C91_vector_new_unknown : forall (n i : nat) (v : R), i < n ->
  exists w x, run_vectors [WrapNew n; Through 0 (VAdd i v)] = Some w /\ seen w 0 = Some x /\ v_element x i = None.
Proof.
  intros n i v Hi.
  destruct (C91_vector_in_range n (fun _ => 0%R) [WrapNew n] [VAdd i v] (or_introl eq_refl)) as (w & x & E & S1 & _).
  { intros before d after E. destruct before as [|b [|]]; [|discriminate|discriminate]. injection E as <- _. exact Hi. }
  exists w, x. split; [exact E|]. split; [exact S1|].
  destruct (C91_vector_new [] [Through 0 (VAdd i v)] n w E) as (x2 & T1 & T2). cbn in T1. rewrite S1 in T1. injection T1 as <-.
  destruct T2 as [_ T2]. rewrite (T2 i Hi). cbn. rewrite Nat.eqb_refl. reflexivity.
Qed.
Print Assumptions C91_vector_new_unknown.

(** A program with a matrix of the user, a wrapper by reference and one by copy: all of them are written to, and what each
    one shows. *)
Definition example_program : list matrix_command :=
  [Declare (false, 2, 3) (fun i j => INR (10 * i + j)); WrapReference 0; WrapCopy 0;
   Through 0 (Set_ 1 2 5%R); Direct 0 (Add 0 0 7%R); Through 1 (Add 1 2 1%R); Through 0 (ClearRow 1)].
Example C91_example : exists w a b, run_matrices example_program = Some w /\ seen w 0 = Some a /\ seen w 1 = Some b /\
  dense_element a 0 0 = Some (0 + 7)%R /\ dense_element a 1 2 = Some 0%R /\ dense_element b 0 0 = Some 0%R /\
  dense_element b 1 2 = Some (INR 12 + 1)%R.
Proof. eexists _, _, _. repeat split. Qed.
Example C91_sparse_example : legal true (3, 3) (map fst (map (fun c => (c, nothing_left)) example_calls)).
Proof. rewrite map_map. cbn [fst]. rewrite map_id. exact (proj1 C41_example). Qed.
Example C91_vector_example : exists w x y, run_vectors [Declare 2 INR; WrapCopy 0; WrapReference 0; Through 0 (VAdd 1 2%R); Through 1 (VResize 3); Direct 0 (VSet 2 4%R)] = Some w /\
  seen w 0 = Some x /\ seen w 1 = Some y /\ v_size x = 2 /\ v_element x 1 = Some (1 + 2)%R /\ v_size y = 3 /\ v_element y 1 = Some 0%R /\ v_element y 2 = Some 4%R.
Proof. eexists _, _, _. repeat split. Qed.
