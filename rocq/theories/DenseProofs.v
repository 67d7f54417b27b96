(** Proofs about the dense wrappers. *)

From Coq Require Import Reals Lra Lia List Arith Bool.
From Verif Require Import EigenMatrixModel EigenMatrixSpec DenseModel DenseSpec.
Import ListNotations.
Open Scope nat_scope.

(** Memory. *)
Lemma modify_length : forall l k g, length (modify l k g) = length l.
Proof. induction l; destruct k; cbn; intros; auto. Qed.
Lemma modify_nth : forall l k g i, nth i (modify l k g) None = if (Nat.eqb i k && Nat.ltb i (length l))%bool then g (nth i l None) else nth i l None.
Proof.
  induction l as [|x l IH]; intros k g i.
  { replace (modify [] k g) with (@nil cell) by (destruct k; reflexivity). cbn [length]. rewrite (proj2 (Nat.ltb_ge i 0)) by lia. rewrite andb_false_r. reflexivity. }
  destruct k, i; cbn [modify nth length].
  - reflexivity.
  - reflexivity.
  - reflexivity.
  - rewrite IH. reflexivity.
Qed.

Definition sound (m : dense) : Prop := length (memory m) = d_rows m * d_cols m.
Lemma offset_lt : forall m i j, i < d_rows m -> j < d_cols m -> offset m i j < d_rows m * d_cols m.
Proof. intros m i j Hi Hj. unfold offset. destruct (by_rows m); nia. Qed.
Lemma mixed : forall n a b a' b', b < n -> b' < n -> a * n + b = a' * n + b' -> a = a' /\ b = b'.
Proof. intros n a b a' b' Hb Hb' E. destruct (Nat.lt_trichotomy a a') as [H|[H|H]]; [nia| |nia]. subst. lia. Qed.
Lemma offset_inj : forall m i j i' j', i < d_rows m -> j < d_cols m -> i' < d_rows m -> j' < d_cols m ->
  Nat.eqb (offset m i' j') (offset m i j) = is_at i j i' j'.
Proof.
  intros m i j i' j' Hi Hj Hi' Hj'. unfold is_at. apply Bool.eq_true_iff_eq. rewrite andb_true_iff, !Nat.eqb_eq. unfold offset.
  destruct (by_rows m); split.
  - intros E. apply mixed in E; [|assumption|assumption]. lia.
  - intros [-> ->]. reflexivity.
  - intros E. apply mixed in E; [|assumption|assumption]. lia.
  - intros [-> ->]. reflexivity.
Qed.

Lemma update_same : forall m i j g, by_rows (update m i j g) = by_rows m /\ d_rows (update m i j g) = d_rows m /\ d_cols (update m i j g) = d_cols m.
Proof. intros. repeat split. Qed.
Lemma update_sound : forall m i j g, sound m -> sound (update m i j g).
Proof. intros m i j g H. unfold sound, update; cbn. rewrite modify_length. exact H. Qed.
Lemma update_element : forall m i j g i' j', sound m -> i < d_rows m -> j < d_cols m -> i' < d_rows m -> j' < d_cols m ->
  dense_element (update m i j g) i' j' = if is_at i j i' j' then g (dense_element m i' j') else dense_element m i' j'.
Proof.
  intros m i j g i' j' H Hi Hj Hi' Hj'. unfold dense_element. change (offset (update m i j g) i' j') with (offset m i' j').
  unfold update, with_memory; cbn [memory]. rewrite modify_nth, (offset_inj m i j i' j') by assumption.
  rewrite (proj2 (Nat.ltb_lt _ _)) by (rewrite H; apply offset_lt; assumption). rewrite andb_true_r. reflexivity.
Qed.

(** The same shape. *)
Definition alike (m m' : dense) : Prop := by_rows m' = by_rows m /\ d_rows m' = d_rows m /\ d_cols m' = d_cols m /\ (sound m -> sound m').
Lemma alike_refl : forall m, alike m m.
Proof. intros m. repeat split; auto. Qed.
Lemma alike_trans : forall a b c, alike a b -> alike b c -> alike a c.
Proof. intros a b c (A1 & A2 & A3 & A4) (B1 & B2 & B3 & B4). repeat split; [congruence|congruence|congruence|auto]. Qed.
Lemma alike_update : forall m i j g, alike m (update m i j g).
Proof. intros. repeat split. apply update_sound. Qed.

Lemma row_loop : forall c m i j g, sound m -> i < d_rows m -> j + c <= d_cols m ->
  let m' := fold_left (fun m l => update m i (j + l) (g l)) (seq 0 c) m in
  alike m m' /\ forall i' j', i' < d_rows m -> j' < d_cols m ->
    dense_element m' i' j' =
      if (Nat.eqb i i' && Nat.leb j j' && Nat.ltb j' (j + c))%bool then g (j' - j) (dense_element m i' j') else dense_element m i' j'.
Proof.
  induction c as [|c IH]; intros m i j g Hm Hi Hj.
  { cbn [seq fold_left]. split; [apply alike_refl|]. intros i' j' _ _.
    destruct (Nat.leb_spec j j'), (Nat.ltb_spec j' (j + 0)); try lia; rewrite ?andb_false_r; reflexivity. }
  rewrite seq_S, fold_left_app. cbn [fold_left].
  destruct (IH m i j g Hm Hi ltac:(lia)) as [A E]. set (m1 := fold_left _ (seq 0 c) m) in *. cbv zeta.
  split; [apply (alike_trans _ m1); [exact A|apply alike_update]|].
  destruct A as (A1 & A2 & A3 & A4). intros i' j' Hi' Hj'.
  rewrite update_element by (first [exact (A4 Hm) | rewrite ?A2, ?A3; lia]). rewrite (E i' j' Hi' Hj'). unfold is_at.
  destruct (Nat.eqb_spec i i') as [->|]; [|reflexivity]. cbn [andb].
  destruct (Nat.eqb_spec (j + (0 + c)) j') as [<-|N].
  - destruct (Nat.leb_spec j (j + (0 + c))); [|lia]. destruct (Nat.ltb_spec (j + (0 + c)) (j + c)); [lia|].
    destruct (Nat.ltb_spec (j + (0 + c)) (j + S c)); [|lia]. cbn [andb]. f_equal. lia.
  - destruct (Nat.leb_spec j j'); [|reflexivity].
    destruct (Nat.ltb_spec j' (j + c)), (Nat.ltb_spec j' (j + S c)); try lia; reflexivity.
Qed.
Lemma block_loop : forall n m i j c g, sound m -> i + n <= d_rows m -> j + c <= d_cols m ->
  let m' := update_block m i j n c g in
  alike m m' /\ forall i' j', i' < d_rows m -> j' < d_cols m ->
    dense_element m' i' j' = if in_block i j n c i' j' then g (i' - i) (j' - j) (dense_element m i' j') else dense_element m i' j'.
Proof.
  unfold update_block. induction n as [|n IH]; intros m i j c g Hm Hi Hj.
  { cbn [seq fold_left]. split; [apply alike_refl|]. intros i' j' _ _. unfold in_block.
    destruct (Nat.leb_spec i i'), (Nat.ltb_spec i' (i + 0)); try lia; reflexivity. }
  rewrite seq_S, fold_left_app. cbn [fold_left].
  destruct (IH m i j c g Hm ltac:(lia) Hj) as [A E]. set (m1 := fold_left _ (seq 0 n) m) in *. cbv zeta.
  pose proof A as (A1 & A2 & A3 & A4).
  destruct (row_loop c m1 (i + (0 + n)) j (g (0 + n)) (A4 Hm) ltac:(rewrite A2; lia) ltac:(rewrite A3; lia)) as [B F].
  split; [apply (alike_trans _ m1); assumption|].
  intros i' j' Hi' Hj'. rewrite F by (rewrite ?A2, ?A3; assumption). rewrite (E i' j' Hi' Hj'). unfold in_block.
  destruct (Nat.eqb_spec (i + (0 + n)) i') as [<-|N]; cbn [andb].
  - destruct (Nat.leb_spec i (i + (0 + n))); [|lia]. destruct (Nat.ltb_spec (i + (0 + n)) (i + n)); [lia|].
    destruct (Nat.ltb_spec (i + (0 + n)) (i + S n)); [|lia]. cbn [andb]. replace (i + (0 + n) - i) with (0 + n) by lia. reflexivity.
  - destruct (Nat.leb_spec i i'); [|reflexivity].
    destruct (Nat.ltb_spec i' (i + n)), (Nat.ltb_spec i' (i + S n)); try lia; reflexivity.
Qed.

Lemma nth_repeat_in : forall (x : cell) n k, k < n -> nth k (repeat x n) None = x.
Proof. intros x n. induction n; intros k H; [lia|]. destruct k; cbn; [reflexivity|]. apply IHn. lia. Qed.

(** One call. *)
Definition step_ok (m : dense) (c : call) (m' : dense) : Prop :=
  by_rows m' = by_rows m /\ sound m' /\ shows m' (new_size c (dense_size m)) (effect c (dense_element m)).
Lemma updated_block : forall m i j n c g, sound m -> i + n <= d_rows m -> j + c <= d_cols m ->
  let m' := update_block m i j n c g in
  by_rows m' = by_rows m /\ sound m' /\
  shows m' (dense_size m) (fun i' j' => if in_block i j n c i' j' then g (i' - i) (j' - j) (dense_element m i' j') else dense_element m i' j').
Proof.
  intros m i j n c g H Hi Hj. cbv zeta. destruct (block_loop n m i j c g H Hi Hj) as [(A1 & A2 & A3 & A4) E].
  split; [exact A1|]. split; [exact (A4 H)|]. split; [unfold dense_size; rewrite A2, A3; reflexivity|]. exact E.
Qed.
Lemma shows_ext : forall m s t u, (forall i j, i < fst s -> j < snd s -> t i j = u i j) -> shows m s t -> shows m s u.
Proof. intros m s t u E [A B]. split; [exact A|]. intros i j Hi Hj. rewrite <- (E i j Hi Hj). apply B; assumption. Qed.
Lemma zero_block : forall m i j n c, sound m -> i + n <= d_rows m -> j + c <= d_cols m ->
  let m' := update_block m i j n c (fun _ _ => put 0%R) in
  by_rows m' = by_rows m /\ sound m' /\
  shows m' (dense_size m) (fun i' j' => if in_block i j n c i' j' then Some 0%R else dense_element m i' j').
Proof. intros. apply updated_block; assumption. Qed.
Ltac block_cases :=
  unfold in_block, between;
  repeat match goal with
  | |- context [Nat.leb ?a ?b] => destruct (Nat.leb_spec a b)
  | |- context [Nat.ltb ?a ?b] => destruct (Nat.ltb_spec a b)
  | |- context [Nat.eqb ?a ?b] => destruct (Nat.eqb_spec a b)
  end; cbn [andb orb]; try reflexivity; try lia.
Lemma zero_where_block : forall m i j n c (p : nat -> nat -> bool), sound m -> i + n <= d_rows m -> j + c <= d_cols m ->
  (forall i' j', i' < d_rows m -> j' < d_cols m -> in_block i j n c i' j' = p i' j') ->
  let m' := update_block m i j n c (fun _ _ => put 0%R) in
  by_rows m' = by_rows m /\ sound m' /\ shows m' (dense_size m) (fun i' j' => if p i' j' then Some 0%R else dense_element m i' j').
Proof.
  intros m i j n c p H Hi Hj E. cbv zeta. destruct (zero_block m i j n c H Hi Hj) as (A & B & C).
  split; [exact A|]. split; [exact B|]. refine (shows_ext _ _ _ _ _ C). cbn. intros i' j' Hi' Hj'. rewrite (E i' j' Hi' Hj'). reflexivity.
Qed.
Lemma call_correct : forall m c m', sound m -> dense_call m c = Some m' -> step_ok m c m'.
Proof.
  intros m c m' H E. unfold step_ok. destruct c; cbn [dense_call new_size] in *.
  - injection E as <-. split; [reflexivity|]. split; [unfold sound; cbn; apply repeat_length|]. split; [reflexivity|].
    cbn [fst snd]. intros i j Hi Hj. unfold dense_element, dense_resize; cbn [memory]. rewrite nth_repeat_in; [reflexivity|].
    exact (offset_lt (dense_resize m r c) i j Hi Hj).
  - injection E as <-. unfold dense_clear.
    destruct (zero_where_block m 0 0 (d_rows m) (d_cols m) (fun _ _ => true) H (le_n _) (le_n _)) as (A & B & C); [|auto].
    intros. block_cases.
  - unfold dense_set, guarded, block_fits in E. destruct (Nat.leb_spec (i + 1) (d_rows m)), (Nat.leb_spec (j + 1) (d_cols m)); try discriminate.
    cbn [andb] in E. injection E as <-. split; [reflexivity|]. split; [apply update_sound; exact H|]. split; [reflexivity|].
    cbn [dense_size fst snd effect]. intros i' j' Hi Hj. apply (update_element m i j (put v)); try assumption; lia.
  - unfold dense_add, guarded, block_fits in E. destruct (Nat.leb_spec (i + 1) (d_rows m)), (Nat.leb_spec (j + 1) (d_cols m)); try discriminate.
    cbn [andb] in E. injection E as <-. split; [reflexivity|]. split; [apply update_sound; exact H|]. split; [reflexivity|].
    cbn [dense_size fst snd effect]. intros i' j' Hi Hj. rewrite (update_element m i j (increase v)) by (assumption || lia).
    destruct (is_at i j i' j'); [|reflexivity]. destruct (dense_element m i' j'); reflexivity.
  - unfold dense_add_block, guarded, block_fits in E.
    destruct (Nat.leb_spec (i + n) (d_rows m)), (Nat.leb_spec (j + c) (d_cols m)); try discriminate. cbn [andb] in E. injection E as <-.
    destruct (updated_block m i j n c (fun k l => increase (m0 k l)) H ltac:(assumption) ltac:(assumption)) as (A & B & C).
    split; [exact A|]. split; [exact B|]. refine (shows_ext _ _ _ _ _ C). cbn [effect]. intros i' j' _ _.
    destruct (in_block i j n c i' j'); [|reflexivity]. destruct (dense_element m i' j'); reflexivity.
  - injection E as <-. split; [reflexivity|]. split; [exact H|]. split; reflexivity.
  - unfold dense_clearRow, guarded in E. destruct (Nat.ltb_spec i (d_rows m)); try discriminate. injection E as <-.
    apply (zero_where_block m i 0 1 (d_cols m) (fun i' _ => Nat.eqb i i')); [exact H|lia|lia|]. intros. block_cases.
  - unfold dense_clearRows, guarded in E. destruct (Nat.leb_spec imin (imax + 1)), (Nat.leb_spec (imax + 1) (d_rows m)); try discriminate.
    cbn [andb] in E. injection E as <-.
    apply (zero_where_block m imin 0 (imax + 1 - imin) (d_cols m) (fun i' _ => between imin imax i')); [exact H|lia|lia|]. intros. block_cases.
  - unfold dense_clearCol, guarded in E. destruct (Nat.ltb_spec j (d_cols m)); try discriminate. injection E as <-.
    apply (zero_where_block m 0 j (d_rows m) 1 (fun _ j' => Nat.eqb j j')); [exact H|lia|lia|]. intros. block_cases.
  - unfold dense_clearCols, guarded in E. destruct (Nat.leb_spec jmin (jmax + 1)), (Nat.leb_spec (jmax + 1) (d_cols m)); try discriminate.
    cbn [andb] in E. injection E as <-.
    apply (zero_where_block m 0 jmin (d_rows m) (jmax + 1 - jmin) (fun _ j' => between jmin jmax j')); [exact H|lia|lia|]. intros. block_cases.
  - unfold dense_clearRowCol, dense_clearRow, guarded in E. destruct (Nat.ltb_spec i (d_rows m)); try discriminate.
    destruct (zero_where_block m i 0 1 (d_cols m) (fun i' _ => Nat.eqb i i') H ltac:(lia) ltac:(lia)) as (A & B & [C1 C2]); [intros; block_cases|].
    set (m1 := update_block m i 0 1 (d_cols m) (fun _ _ => put 0%R)) in *. unfold dense_clearCol, guarded in E.
    destruct (Nat.ltb_spec i (d_cols m1)); try discriminate. injection E as <-.
    destruct (zero_where_block m1 0 i (d_rows m1) 1 (fun _ j' => Nat.eqb i j') B ltac:(lia) ltac:(lia)) as (D & F & [G1 G2]); [intros; block_cases|].
    split; [congruence|]. split; [exact F|]. split; [congruence|]. intros i' j' Hi Hj. rewrite <- C1 in Hi, Hj. rewrite (G2 i' j' Hi Hj).
    cbn [effect]. rewrite C1 in Hi, Hj. rewrite (C2 i' j' Hi Hj). destruct (Nat.eqb i i'), (Nat.eqb i j'); reflexivity.
  - injection E as <-. split; [reflexivity|]. split; [exact H|]. split; reflexivity.
Qed.
Lemma call_works : forall m c, in_range (dense_size m) c -> dense_call m c <> None.
Proof.
  intros m c H. destruct c; cbn [dense_call in_range dense_size fst snd] in *; try discriminate;
    unfold dense_set, dense_add, dense_add_block, dense_clearRow, dense_clearRows, dense_clearCol, dense_clearCols, block_fits, guarded.
  all: try solve [block_cases; try discriminate].
  unfold dense_clearRowCol, dense_clearRow, guarded. destruct (Nat.ltb_spec i (d_rows m)); [|lia].
  unfold dense_clearCol, guarded. assert (D : d_cols (update_block m i 0 1 (d_cols m) (fun _ _ => put 0%R)) = d_cols m).
  { unfold update_block. cbn [seq fold_left]. generalize (seq 0 (d_cols m)) as l. intros l. clear H. revert m H0.
    intros m _. assert (Q : forall l m0, d_cols m0 = d_cols m -> d_cols (fold_left (fun m l => update m (i + 0) (0 + l) (put 0%R)) l m0) = d_cols m).
    { intros l0. induction l0 as [|a l0 IH]; intros m0 E; [exact E|]. cbn [fold_left]. apply IH. exact E. }
    apply Q. reflexivity. }
  rewrite D. destruct (Nat.ltb_spec i (d_cols m)); [discriminate|lia].
Qed.

(** Histories. *)
Fixpoint calls_of {obj op} (apply : obj -> op -> option obj) (m : obj) (l : list op) : option obj :=
  match l with [] => Some m | c :: l => bind (apply m c) (fun m => calls_of apply m l) end.
Lemma effect_ext : forall c t u, forall s, (forall i j, i < fst s -> j < snd s -> t i j = u i j) ->
  forall i j, i < fst (new_size c s) -> j < snd (new_size c s) -> effect c t i j = effect c u i j.
Proof.
  intros c t u s E i j Hi Hj. destruct c; cbn [effect new_size] in *; try reflexivity; try rewrite (E i j Hi Hj); reflexivity.
Qed.
Lemma table_ext : forall l t u s, (forall i j, i < fst s -> j < snd s -> t i j = u i j) ->
  forall i j, i < fst (size_of s l) -> j < snd (size_of s l) -> table_after t l i j = table_after u l i j.
Proof.
  unfold table_after, size_of. induction l as [|c l IH]; intros t u s E i j Hi Hj; [apply E; assumption|].
  cbn [fold_left] in *. apply (IH _ _ (new_size c s)); [|assumption|assumption]. intros i' j'. apply effect_ext. exact E.
Qed.
Lemma history_correct : forall l m m', sound m -> calls_of dense_call m l = Some m' ->
  by_rows m' = by_rows m /\ sound m' /\ shows m' (size_of (dense_size m) l) (table_after (dense_element m) l).
Proof.
  induction l as [|c l IH]; intros m m' H E; cbn [calls_of] in E.
  { injection E as <-. split; [reflexivity|]. split; [exact H|]. split; reflexivity. }
  destruct (dense_call m c) as [m1|] eqn:E1; [|discriminate]. cbn [bind] in E.
  destruct (call_correct m c m1 H E1) as (A & B & [C1 C2]). destruct (IH m1 m' B E) as (D & F & [G1 G2]).
  split; [congruence|]. split; [exact F|]. unfold size_of, table_after in *. cbn [fold_left]. rewrite C1 in G1, G2. split; [exact G1|].
  intros i j Hi Hj. rewrite (G2 i j Hi Hj). apply (table_ext l _ _ (new_size c (dense_size m)) C2); assumption.
Qed.
Lemma history_works : forall l m, sound m -> calls_in_range (dense_size m) l -> exists m', calls_of dense_call m l = Some m'.
Proof.
  induction l as [|c l IH]; intros m H HR; [exists m; reflexivity|]. cbn [calls_of].
  pose proof (call_works m c (HR [] c l eq_refl)) as N. destruct (dense_call m c) as [m1|] eqn:E1; [|congruence]. cbn [bind].
  destruct (call_correct m c m1 H E1) as (A & B & [C1 C2]). apply (IH m1 B). rewrite C1. intros before d after E.
  apply (HR (c :: before) d after). cbn. rewrite E. reflexivity.
Qed.
Lemma blank_sound : forall s, sound (blank s).
Proof. intros [[rm r] c]. unfold sound; cbn. apply repeat_length. Qed.
Lemma filled_sound : forall s f, sound (filled s f).
Proof. intros [[rm r] c] f. unfold sound; cbn [filled memory d_rows d_cols]. rewrite map_length, seq_length. reflexivity. Qed.
Lemma blank_element : forall s i j, dense_element (blank s) i j = None.
Proof.
  intros [[rm r] c] i j. unfold dense_element, blank; cbn [memory]. generalize (offset {| by_rows := rm; d_rows := r; d_cols := c; memory := repeat None (r * c) |} i j).
  generalize (r * c). intros n. induction n; intros k; destruct k; cbn; auto.
Qed.
Lemma filled_element : forall rm r c f i j, i < r -> j < c -> dense_element (filled (rm, r, c) f) i j = Some (f i j).
Proof.
  intros rm r c f i j Hi Hj. unfold dense_element. set (o := offset _ i j).
  assert (Ho : o < r * c) by (apply (offset_lt (filled (rm, r, c) f)); assumption).
  cbn [filled memory].
  rewrite nth_indep with (d' := Some (if rm then f (0 / c) (0 mod c) else f (0 mod r) (0 / r))) by (rewrite map_length, seq_length; exact Ho).
  rewrite (map_nth (fun o => Some (if rm then f (o / c) (o mod c) else f (o mod r) (o / r))) (seq 0 (r * c)) 0 o).
  rewrite seq_nth by exact Ho. cbn [Nat.add]. unfold o, offset. cbn [filled by_rows d_cols d_rows]. destruct rm.
  - rewrite Nat.div_add_l, Nat.div_small, (Nat.add_comm (i * c)), Nat.mod_add, Nat.mod_small by lia. rewrite Nat.add_0_r. reflexivity.
  - rewrite Nat.div_add_l, Nat.div_small, (Nat.add_comm (j * r)), Nat.mod_add, Nat.mod_small by lia. rewrite Nat.add_0_r. reflexivity.
Qed.

(** Vectors. *)
Lemma setZero_gen : forall n x, n <= length x -> length (fold_left (fun x i => modify x i (put 0%R)) (seq 0 n) x) = length x /\
  forall i, nth i (fold_left (fun x i => modify x i (put 0%R)) (seq 0 n) x) None = if Nat.ltb i n then Some 0%R else nth i x None.
Proof.
  induction n as [|n IH]; intros x Hn; [split; reflexivity|]. rewrite seq_S, fold_left_app. cbn [fold_left Nat.add].
  destruct (IH x ltac:(lia)) as [A B]. split; [rewrite modify_length; exact A|]. intros i. rewrite modify_nth, A, B.
  destruct (Nat.eqb_spec i n) as [->|N].
  - rewrite (proj2 (Nat.ltb_lt n (length x))) by lia. rewrite (proj2 (Nat.ltb_lt n (S n))) by lia. reflexivity.
  - cbn [andb]. destruct (Nat.ltb_spec i n), (Nat.ltb_spec i (S n)); try lia; reflexivity.
Qed.
Lemma setZero_shows : forall x, v_shows (v_setZero x) (length x) (fun _ => Some 0%R).
Proof.
  intros x. destruct (setZero_gen (length x) x (le_n _)) as [A B]. split; [exact A|]. intros i Hi. unfold v_element, v_setZero.
  rewrite B, (proj2 (Nat.ltb_lt _ _) Hi). reflexivity.
Qed.
Lemma v_correct : forall x c x', v_call x c = Some x' ->
  v_shows x' (v_size_after (v_size x) [c]) (v_effect c (v_element x)).
Proof.
  intros x c x' E. destruct c; cbn [v_call v_size_after fold_left v_effect] in *.
  - injection E as <-. destruct (Nat.eqb_spec n (length x)) as [->|N]; [apply setZero_shows|].
    pose proof (setZero_shows (repeat None n)) as H. rewrite repeat_length in H. exact H.
  - injection E as <-. apply setZero_shows.
  - destruct (Nat.ltb_spec i (length x)); [|discriminate]. injection E as <-. split; [apply modify_length|].
    intros k Hk. unfold v_element. rewrite modify_nth, (proj2 (Nat.ltb_lt k (length x)) Hk), andb_true_r, Nat.eqb_sym. reflexivity.
  - destruct (Nat.ltb_spec i (length x)); [|discriminate]. injection E as <-. split; [apply modify_length|].
    intros k Hk. unfold v_element. rewrite modify_nth, (proj2 (Nat.ltb_lt k (length x)) Hk), andb_true_r, Nat.eqb_sym.
    destruct (Nat.eqb i k); [|reflexivity]. destruct (nth k x None); reflexivity.
Qed.
Lemma v_ext : forall l t u n, (forall i, i < n -> t i = u i) -> forall i, i < v_size_after n l -> v_after t l i = v_after u l i.
Proof.
  unfold v_after, v_size_after. induction l as [|c l IH]; intros t u n E i Hi; [apply E; assumption|]. cbn [fold_left] in *.
  apply (IH _ _ (match c with VResize n => n | _ => n end)); [|exact Hi]. intros k Hk.
  destruct c; cbn [v_effect] in *; try reflexivity; rewrite (E k Hk); reflexivity.
Qed.
Lemma v_history_correct : forall l x x', calls_of v_call x l = Some x' -> v_shows x' (v_size_after (v_size x) l) (v_after (v_element x) l).
Proof.
  induction l as [|c l IH]; intros x x' E; cbn [calls_of] in E; [injection E as <-; split; reflexivity|].
  destruct (v_call x c) as [x1|] eqn:E1; [|discriminate]. cbn [bind] in E. destruct (v_correct x c x1 E1) as [C1 C2].
  destruct (IH x1 x' E) as [G1 G2]. unfold v_size_after, v_after in *. cbn [fold_left] in *. rewrite C1 in G1, G2. split; [exact G1|].
  intros i Hi. rewrite (G2 i Hi). apply (v_ext l _ _ _ C2). exact Hi.
Qed.
Lemma v_history_works : forall l x, v_in_range (v_size x) l -> exists x', calls_of v_call x l = Some x'.
Proof.
  induction l as [|c l IH]; intros x HR; [exists x; reflexivity|]. cbn [calls_of].
  assert (N : v_call x c <> None).
  { pose proof (HR [] c l eq_refl) as H. destruct c; cbn [v_call]; try discriminate; cbn [v_size_after fold_left] in H; unfold v_size in H; rewrite (proj2 (Nat.ltb_lt _ _) H); discriminate. }
  destruct (v_call x c) as [x1|] eqn:E1; [|congruence]. cbn [bind]. destruct (v_correct x c x1 E1) as [C1 C2].
  apply IH. rewrite C1. intros before d after E. apply (HR (c :: before) d after). cbn. rewrite E. reflexivity.
Qed.

(** Programs. *)
Section Programs.
  Context {obj op shape content : Type}.
  Context (apply : obj -> op -> option obj) (make : shape -> content -> obj) (allocate : shape -> obj).
  Notation run := (perform apply make allocate).
  Notation cmd := (command op shape content).
  Lemma perform_app : forall p1 p2 w, run w (p1 ++ p2) = bind (run w p1) (fun w => run w p2).
  Proof. induction p1 as [|c p1 IH]; intros p2 w; [reflexivity|]. cbn. destruct (execute apply make allocate w c); cbn; [apply IH|reflexivity]. Qed.
  Lemma calls_of_app : forall l1 l2 m, calls_of apply m (l1 ++ l2) = bind (calls_of apply m l1) (fun m => calls_of apply m l2).
  Proof. induction l1 as [|c l1 IH]; intros l2 m; [reflexivity|]. cbn. destruct (apply m c); cbn; [apply IH|reflexivity]. Qed.
  Lemma change_length : forall A (l : list A) k a, length (change l k a) = length l.
  Proof. induction l; destruct k; cbn; intros; auto. Qed.
  Lemma change_same : forall A (l : list A) k a, k < length l -> nth_error (change l k a) k = Some a.
  Proof. induction l; destruct k; cbn; intros; try lia; [reflexivity|]. apply IHl. lia. Qed.
  Lemma change_other : forall A (l : list A) k a n, n <> k -> nth_error (change l k a) n = nth_error l n.
  Proof. induction l; destruct k, n; cbn; intros; try congruence; try reflexivity. apply IHl. congruence. Qed.
  Lemma bind_some : forall A B (x : option A) (f : A -> option B) b, bind x f = Some b -> exists a, x = Some a /\ f a = Some b.
  Proof. intros A B [a|] f b E; [exists a; auto|discriminate]. Qed.

  Definition ref_of (h : holder obj) : option nat := match h with Own _ => None | Reference k => Some k end.
  (** The wrappers know which matrices they refer to. *)
  Lemma act_cases : forall w k o w', act apply w k o = Some w' -> exists m m', nth_error (mine w) k = Some m /\ apply m o = Some m' /\
    w' = {| mine := change (mine w) k m'; wrappers := wrappers w |}.
  Proof.
    intros w k o w' E. unfold act in E. apply bind_some in E as (m & E1 & E). apply bind_some in E as (m' & E2 & E).
    injection E as <-. exists m, m'. auto.
  Qed.
  Lemma execute_refs : forall w c w', execute apply make allocate w c = Some w' ->
    map ref_of (wrappers w') = map ref_of (wrappers w) ++ reference_of c /\
    length (mine w') = length (mine w) + declared [c].
  Proof.
    intros w c w' E. destruct c; cbn [execute reference_of declared filter length] in *.
    - injection E as <-. cbn. rewrite app_nil_r, app_length. cbn. auto.
    - apply act_cases in E as (m & m' & _ & _ & ->). cbn. rewrite app_nil_r, change_length. auto.
    - apply bind_some in E as (m & _ & E). injection E as <-. cbn. rewrite map_app. auto.
    - apply bind_some in E as (m & _ & E). injection E as <-. cbn. rewrite map_app. auto.
    - injection E as <-. cbn. rewrite map_app. auto.
    - apply bind_some in E as (h & Eh & E). destruct h as [m|k].
      + apply bind_some in E as (m' & _ & E). injection E as <-. cbn. rewrite app_nil_r. split; [|lia].
        revert Eh. generalize (wrappers w) as l. intros l. revert w0. induction l as [|x l IH]; intros [|n] Eh; cbn in *; try discriminate.
        * injection Eh as ->. reflexivity.
        * rewrite (IH n Eh). reflexivity.
      + apply act_cases in E as (m & m' & _ & _ & ->). cbn. rewrite app_nil_r, change_length. auto.
  Qed.
  Lemma perform_refs : forall p w w', run w p = Some w' ->
    map ref_of (wrappers w') = map ref_of (wrappers w) ++ references p /\ length (mine w') = length (mine w) + declared p.
  Proof.
    induction p as [|c p IH]; intros w w' E; cbn [perform] in E.
    { injection E as <-. cbn. rewrite app_nil_r. auto. }
    apply bind_some in E as (w1 & E1 & E). apply execute_refs in E1 as [A B]. apply IH in E as [C D].
    unfold references in *. cbn [flat_map]. rewrite C, A, app_assoc. split; [reflexivity|]. rewrite D, B. unfold declared; cbn [filter].
    destruct c; cbn [length]; lia.
  Qed.
  (** The matrix of a wrapper that owns it changes only through this wrapper. *)
  Lemma owned_history : forall p w w' n m, run w p = Some w' -> nth_error (wrappers w) n = Some (Own m) ->
    exists m', calls_of apply m (calls_through n p) = Some m' /\ nth_error (wrappers w') n = Some (Own m').
  Proof.
    induction p as [|c p IH]; intros w w' n m E H; cbn [perform] in E.
    { injection E as <-. exists m. auto. }
    apply bind_some in E as (w1 & E1 & E). unfold calls_through. cbn [flat_map]. fold (calls_through n p).
    assert (K : n < length (wrappers w)) by (apply nth_error_Some; congruence).
    destruct c as [s f|k o|k|k|s|k o]; cbn [execute app] in *.
    - injection E1 as <-. exact (IH _ w' n m E H).
    - apply act_cases in E1 as (m1 & m2 & _ & _ & ->). exact (IH _ w' n m E H).
    - apply bind_some in E1 as (m1 & _ & E1). injection E1 as <-. refine (IH _ w' n m E _). cbn. rewrite nth_error_app1; assumption.
    - apply bind_some in E1 as (m1 & _ & E1). injection E1 as <-. refine (IH _ w' n m E _). cbn. rewrite nth_error_app1; assumption.
    - injection E1 as <-. refine (IH _ w' n m E _). cbn. rewrite nth_error_app1; assumption.
    - apply bind_some in E1 as (h & Eh & E1). destruct h as [m1|j].
      + apply bind_some in E1 as (m2 & Em & E1). injection E1 as <-. destruct (Nat.eqb_spec k n) as [->|N].
        * rewrite H in Eh. injection Eh as <-. destruct (IH _ w' n m2 E) as (m' & A & B).
          { cbn. apply change_same. exact K. }
          exists m'. split; [|exact B]. cbn [app calls_of]. rewrite Em. exact A.
        * refine (IH _ w' n m E _). cbn. rewrite change_other by congruence. exact H.
      + destruct (Nat.eqb_spec k n) as [->|N]; [congruence|].
        apply act_cases in E1 as (m1 & m2 & _ & _ & ->). exact (IH _ w' n m E H).
  Qed.
  (** A matrix of the user changes directly and through the wrappers that refer to it. *)
  Lemma mine_history : forall p w w' k m, run w p = Some w' -> nth_error (mine w) k = Some m ->
    exists m', calls_of apply m (calls_on (map ref_of (wrappers w)) k p) = Some m' /\ nth_error (mine w') k = Some m'.
  Proof.
    induction p as [|c p IH]; intros w w' k m E H; cbn [perform] in E.
    { injection E as <-. exists m. auto. }
    apply bind_some in E as (w1 & E1 & E). cbn [calls_on]. pose proof (execute_refs _ _ _ E1) as [R _]. rewrite <- R.
    assert (K : k < length (mine w)) by (apply nth_error_Some; congruence).
    assert (ACT : forall j o, act apply w j o = Some w1 -> exists m', calls_of apply m ((if Nat.eqb j k then [o] else []) ++ calls_on (map ref_of (wrappers w1)) k p) = Some m' /\ nth_error (mine w') k = Some m').
    { intros j o A. apply act_cases in A as (m1 & m2 & Hm1 & Hm2 & ->). destruct (Nat.eqb_spec j k) as [->|N].
      - rewrite H in Hm1. injection Hm1 as <-. destruct (IH _ w' k m2 E) as (m' & A & B); [cbn; apply change_same; exact K|].
        exists m'. split; [|exact B]. cbn [app calls_of]. rewrite Hm2. exact A.
      - cbn [app]. refine (IH _ w' k m E _). cbn. rewrite change_other by congruence. exact H. }
    destruct c as [s f|j o|j|j|s|j o]; cbn [execute app] in *.
    - injection E1 as <-. refine (IH _ w' k m E _). cbn. rewrite nth_error_app1; assumption.
    - exact (ACT j o E1).
    - apply bind_some in E1 as (m1 & _ & E1). injection E1 as <-. exact (IH _ w' k m E H).
    - apply bind_some in E1 as (m1 & _ & E1). injection E1 as <-. exact (IH _ w' k m E H).
    - injection E1 as <-. exact (IH _ w' k m E H).
    - apply bind_some in E1 as (h & Eh & E1).
      assert (RN : nth j (map ref_of (wrappers w)) None = ref_of h).
      { apply nth_error_nth. rewrite nth_error_map, Eh. reflexivity. }
      rewrite RN. destruct h as [m1|i]; cbn [ref_of].
      + apply bind_some in E1 as (m2 & Em & E1). injection E1 as <-. exact (IH _ w' k m E H).
      + exact (ACT i o E1).
  Qed.

  (** From the start of the program. *)
  Notation empty := (@nothing_yet obj).
  Lemma start_refs : forall p w, run empty p = Some w ->
    map ref_of (wrappers w) = references p /\ length (wrappers w) = length (references p) /\ length (mine w) = declared p.
  Proof.
    intros p w E. apply perform_refs in E as [A B]. cbn in A, B. split; [exact A|]. split; [|exact B].
    rewrite <- A, map_length. reflexivity.
  Qed.
  Lemma split_program : forall p1 c p2 w, run empty (p1 ++ c :: p2) = Some w ->
    exists w1 w2, run empty p1 = Some w1 /\ execute apply make allocate w1 c = Some w2 /\ run w2 p2 = Some w.
  Proof.
    intros p1 c p2 w E. rewrite perform_app in E. apply bind_some in E as (w1 & E1 & E). cbn [perform] in E.
    apply bind_some in E as (w2 & E2 & E). exists w1, w2. auto.
  Qed.
  Lemma last_wrapper : forall (l : list (holder obj)) h, nth_error (l ++ [h]) (length l) = Some h.
  Proof. intros. rewrite nth_error_app2, Nat.sub_diag by lia. reflexivity. Qed.
  Lemma copy_history : forall p1 k p2 w, run empty (p1 ++ WrapCopy k :: p2) = Some w ->
    exists w1 m m', run empty p1 = Some w1 /\ nth_error (mine w1) k = Some m /\
      calls_of apply m (calls_through (length (references p1)) p2) = Some m' /\ seen w (length (references p1)) = Some m'.
  Proof.
    intros p1 k p2 w E. apply split_program in E as (w1 & w2 & E1 & E2 & E). cbn [execute] in E2.
    apply bind_some in E2 as (m & Em & E2). injection E2 as <-. destruct (start_refs _ _ E1) as (_ & L & _). rewrite <- L.
    destruct (owned_history p2 _ w (length (wrappers w1)) m E) as (m' & A & B); [cbn; apply last_wrapper|].
    exists w1, m, m'. split; [exact E1|]. split; [exact Em|]. split; [exact A|]. unfold seen. rewrite B. reflexivity.
  Qed.
  Lemma new_history : forall p1 s p2 w, run empty (p1 ++ WrapNew s :: p2) = Some w ->
    exists m', calls_of apply (allocate s) (calls_through (length (references p1)) p2) = Some m' /\ seen w (length (references p1)) = Some m'.
  Proof.
    intros p1 s p2 w E. apply split_program in E as (w1 & w2 & E1 & E2 & E). cbn [execute] in E2. injection E2 as <-.
    destruct (start_refs _ _ E1) as (_ & L & _). rewrite <- L.
    destruct (owned_history p2 _ w (length (wrappers w1)) (allocate s) E) as (m' & A & B); [cbn; apply last_wrapper|].
    exists m'. split; [exact A|]. unfold seen. rewrite B. reflexivity.
  Qed.
  Lemma declared_history : forall p1 s f p2 w, run empty (p1 ++ Declare s f :: p2) = Some w ->
    exists m', calls_of apply (make s f) (calls_on (references p1) (declared p1) p2) = Some m' /\ nth_error (mine w) (declared p1) = Some m'.
  Proof.
    intros p1 s f p2 w E. apply split_program in E as (w1 & w2 & E1 & E2 & E). cbn [execute] in E2. injection E2 as <-.
    destruct (start_refs _ _ E1) as (RR & _ & L). rewrite <- L, <- RR.
    apply (mine_history p2 _ w (length (mine w1)) (make s f) E). cbn. rewrite nth_error_app2, Nat.sub_diag by lia. reflexivity.
  Qed.
  Lemma owned_stays : forall p w w' n k, run w p = Some w' -> nth_error (wrappers w) n = Some (Reference k) -> nth_error (wrappers w') n = Some (Reference k).
  Proof.
    intros p w w' n k E H. apply perform_refs in E as [A _].
    assert (Q : nth_error (map ref_of (wrappers w')) n = Some (Some k)).
    { rewrite A, nth_error_app1; [rewrite nth_error_map, H; reflexivity|]. rewrite map_length. apply nth_error_Some. congruence. }
    rewrite nth_error_map in Q. destruct (nth_error (wrappers w') n) as [[m|j]|]; cbn in Q; congruence.
  Qed.
  Lemma reference_seen : forall p1 k p2 w, run empty (p1 ++ WrapReference k :: p2) = Some w ->
    exists m, seen w (length (references p1)) = Some m /\ nth_error (mine w) k = Some m.
  Proof.
    intros p1 k p2 w E. apply split_program in E as (w1 & w2 & E1 & E2 & E). cbn [execute] in E2.
    apply bind_some in E2 as (m & Em & E2). injection E2 as <-. destruct (start_refs _ _ E1) as (_ & L & _). rewrite <- L.
    pose proof (owned_stays p2 _ w (length (wrappers w1)) k E ltac:(cbn; apply last_wrapper)) as S1.
    destruct (mine_history p2 _ w k m E Em) as (m' & _ & B). exists m'. unfold seen. rewrite S1. cbn. auto.
  Qed.
  (** Nothing in memory is malformed. *)
  Lemma invariant : forall (P : obj -> Prop), (forall s f, P (make s f)) -> (forall s, P (allocate s)) ->
    (forall m o m', P m -> apply m o = Some m' -> P m') ->
    forall p w, run empty p = Some w -> forall k m, nth_error (mine w) k = Some m -> P m.
  Proof.
    intros P P1 P2 P3. assert (G : forall p w w', run w p = Some w' ->
      (forall k m, nth_error (mine w) k = Some m -> P m) -> forall k m, nth_error (mine w') k = Some m -> P m).
    { induction p as [|c p IH]; intros w w' E H; cbn [perform] in E; [injection E as <-; exact H|].
      apply bind_some in E as (w1 & E1 & E). apply (IH w1 w' E). clear E IH.
      assert (ACT : forall j o, act apply w j o = Some w1 -> forall k m, nth_error (mine w1) k = Some m -> P m).
      { intros j o A k m. apply act_cases in A as (m1 & m2 & Hm1 & Hm2 & ->). cbn. destruct (Nat.eq_dec k j) as [->|N].
        - rewrite change_same by (apply nth_error_Some; congruence). intros Q; injection Q as <-. apply (P3 m1 o); [apply (H j)|]; assumption.
        - rewrite change_other by exact N. apply H. }
      destruct c as [s f|j o|j|j|s|j o]; cbn [execute] in E1.
      - injection E1 as <-. cbn. intros k m Hk. destruct (Nat.lt_ge_cases k (length (mine w))).
        + rewrite nth_error_app1 in Hk by assumption. apply (H k m Hk).
        + rewrite nth_error_app2 in Hk by assumption. destruct (k - length (mine w)) as [|[|]]; cbn in Hk; try discriminate. injection Hk as <-. apply P1.
      - exact (ACT j o E1).
      - apply bind_some in E1 as (m1 & _ & E1). injection E1 as <-. exact H.
      - apply bind_some in E1 as (m1 & _ & E1). injection E1 as <-. exact H.
      - injection E1 as <-. exact H.
      - apply bind_some in E1 as (h & Eh & E1). destruct h as [m1|i].
        + apply bind_some in E1 as (m2 & _ & E1). injection E1 as <-. exact H.
        + exact (ACT i o E1). }
    intros p w E. apply (G p _ w E). intros k m Hk. destruct k; discriminate.
  Qed.
End Programs.
