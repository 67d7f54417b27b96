(** The wrapper represents a table of numbers: one lemma for each call. *)

From Coq Require Import Reals Lra Lia List Arith Bool Sorted.
From Verif Require Import GridGeoModel ShapeModel Sums SparseModel SparseProofs EigenMatrixModel EigenMatrixSpec.
From Verif Require Import EigenMatrixProofs.
Import ListNotations.
Open Scope nat_scope.

Definition innerSize (m : sparse) : nat := if rowMajor m then cols m else rows m.
Definition good (m : sparse) : Prop := length (vectors m) = outerSize m /\ Forall (fine (innerSize m)) (vectors m).
Definition entry (m : sparse) (i j : nat) : option R := get (vector m (outer_of m i j)) (inner_of m i j).
Definition inside (m : sparse) (i j : nat) : Prop := i < rows m /\ j < cols m.

Lemma coefficient_entry : forall m i j, coefficient m i j = match entry m i j with Some x => x | None => 0%R end.
Proof. intros. unfold coefficient, entry, get. destruct (search _ _ _); reflexivity. Qed.
Lemma inside_outer : forall m i j, inside m i j -> outer_of m i j < outerSize m.
Proof. intros m i j [H1 H2]. unfold outer_of, outerSize. destruct (rowMajor m); assumption. Qed.
Lemma inside_inner : forall m i j, inside m i j -> inner_of m i j < innerSize m.
Proof. intros m i j [H1 H2]. unfold inner_of, innerSize. destruct (rowMajor m); assumption. Qed.
Lemma good_vector : forall m k, good m -> k < outerSize m -> fine (innerSize m) (vector m k).
Proof. intros m k [H1 H2] Hk. apply (proj1 (Forall_forall _ _) H2). apply nth_In. lia. Qed.
Lemma compressed_vector : forall m k, good m -> isCompressed m -> k < outerSize m -> full (vector m k).
Proof. intros m k [H1 _] H2 Hk. apply (proj1 (Forall_forall _ _) H2). apply nth_In. lia. Qed.
Lemma vector_map_seq : forall m f k, k < outerSize m ->
  vector (with_vectors m (map f (seq 0 (outerSize m)))) k = f k.
Proof.
  intros m f k Hk. unfold vector. cbn [vectors with_vectors]. rewrite (nth_map_in _ _ 0) by (rewrite seq_length; exact Hk).
  rewrite seq_nth by exact Hk. reflexivity.
Qed.
Lemma vector_map : forall m f k, k < length (vectors m) -> vector (with_vectors m (map f (vectors m))) k = f (vector m k).
Proof. intros m f k Hk. unfold vector. cbn [vectors with_vectors]. apply nth_map_in. exact Hk. Qed.
Lemma good_intro : forall m, length (vectors m) = outerSize m ->
  (forall k, k < outerSize m -> fine (innerSize m) (vector m k)) -> good m.
Proof.
  intros m H1 H2. split; [exact H1|]. apply Forall_forall. intros v Hv. apply In_nth with (d := {| data := []; nnz := 0 |}) in Hv.
  destruct Hv as (k & Hk & <-). apply H2. lia.
Qed.
Lemma compressed_intro : forall m, length (vectors m) = outerSize m ->
  (forall k, k < outerSize m -> full (vector m k)) -> isCompressed m.
Proof.
  intros m H1 H2. apply Forall_forall. intros v Hv. apply In_nth with (d := {| data := []; nnz := 0 |}) in Hv.
  destruct Hv as (k & Hk & <-). apply H2. lia.
Qed.

(** Clearing some coefficients. *)
Lemma cleared : forall m l (P : nat -> nat -> bool), good m -> length l = outerSize m ->
  (forall k, k < outerSize m -> vector (with_vectors m l) k = modified (P k) 0 (vector m k)) ->
  good (with_vectors m l) /\ (isCompressed m -> isCompressed (with_vectors m l)) /\
  (forall i j, inside m i j -> entry (with_vectors m l) i j =
     match entry m i j with Some y => Some (if P (outer_of m i j) (inner_of m i j) then 0%R else y) | None => None end).
Proof.
  intros m l P G Hl Hv. split; [|split].
  - apply good_intro; [exact Hl|]. intros k Hk. rewrite Hv by exact Hk. apply modified_fine. exact (good_vector m k G Hk).
  - intros C. apply compressed_intro; [exact Hl|]. intros k Hk. rewrite Hv by exact Hk. apply modified_full.
    exact (compressed_vector m k G C Hk).
  - intros i j Hin. unfold entry. change (outer_of (with_vectors m l) i j) with (outer_of m i j).
    change (inner_of (with_vectors m l) i j) with (inner_of m i j).
    rewrite Hv by (apply inside_outer; exact Hin). apply (modified_get (innerSize m)). apply good_vector; [exact G|].
    apply inside_outer. exact Hin.
Qed.
Lemma modified_none : forall v x, modified (fun _ => false) x v = v.
Proof. intros v x. unfold modified. rewrite modify_none by reflexivity. destruct v; reflexivity. Qed.

Lemma memset_spec : forall m a b, good m ->
  good (memset_vectors m a b) /\ (isCompressed m -> isCompressed (memset_vectors m a b)) /\
  (forall i j, inside m i j -> entry (memset_vectors m a b) i j =
     match entry m i j with Some y => Some (if between a b (outer_of m i j) then 0%R else y) | None => None end).
Proof.
  intros m a b G. apply (cleared m _ (fun k _ => between a b k) G); [rewrite map_length; apply seq_length|].
  intros k Hk. rewrite vector_map_seq by exact Hk. fold (between a b k).
  destruct (between a b k); [unfold modified; rewrite memset_modify; reflexivity|]. symmetry. apply modified_none.
Qed.
Lemma zero_inner_spec : forall m key, good m -> isCompressed m ->
  good (zero_inner m key) /\ (isCompressed m -> isCompressed (zero_inner m key)) /\
  (forall i j, inside m i j -> entry (zero_inner m key) i j =
     match entry m i j with Some y => Some (if Nat.eqb key (inner_of m i j) then 0%R else y) | None => None end).
Proof.
  intros m key G C. apply (cleared m _ (fun _ => Nat.eqb key) G); [rewrite map_length; apply G|].
  intros k Hk. rewrite vector_map by (rewrite (proj1 G); exact Hk).
  apply (zero_at_full (innerSize m)); [apply good_vector|apply compressed_vector]; assumption.
Qed.
Lemma zero_inner_range_spec : forall m a b, good m -> isCompressed m ->
  good (zero_inner_range m a b) /\ (isCompressed m -> isCompressed (zero_inner_range m a b)) /\
  (forall i j, inside m i j -> entry (zero_inner_range m a b) i j =
     match entry m i j with Some y => Some (if between a b (inner_of m i j) then 0%R else y) | None => None end).
Proof.
  intros m a b G C. apply (cleared m _ (fun _ => between a b) G); [rewrite map_length; apply G|].
  intros k Hk. rewrite vector_map by (rewrite (proj1 G); exact Hk).
  apply (zero_range_full (innerSize m)); [apply good_vector|apply compressed_vector]; assumption.
Qed.

(** The symmetric shortcut. *)
Lemma at_vector_spec : forall l k f q, k < length l ->
  length (at_vector l k f) = length l /\
  nth q (at_vector l k f) {| data := []; nnz := 0 |} =
    if Nat.eqb q k then f (nth k l {| data := []; nnz := 0 |}) else nth q l {| data := []; nnz := 0 |}.
Proof.
  intros l k f q Hk. unfold at_vector. split.
  { rewrite app_length, firstn_length. cbn [length]. rewrite skipn_length. lia. }
  destruct (Nat.eqb_spec q k) as [->|N].
  - rewrite app_nth2; rewrite firstn_length, Nat.min_l by lia; [|lia]. rewrite Nat.sub_diag. reflexivity.
  - destruct (Nat.lt_ge_cases q k).
    + rewrite app_nth1 by (rewrite firstn_length; lia). apply nth_firstn. assumption.
    + rewrite app_nth2; rewrite firstn_length, Nat.min_l by lia; [|lia].
      replace (q - k) with (S (q - k - 1)) by lia. cbn [nth].
      rewrite <- (firstn_skipn (S k) l) at 2. rewrite app_nth2; rewrite firstn_length, Nat.min_l by lia; [|lia].
      f_equal. lia.
Qed.
Lemma modified_twice : forall p x v, modified p x (modified p x v) = modified p x v.
Proof.
  intros p x v. unfold modified, modify. cbn [data nnz]. f_equal. rewrite map_map. apply map_ext. intros e.
  destruct (p (fst e)) eqn:E; cbn [fst]; rewrite E; reflexivity.
Qed.
Lemma shortcut_fold : forall n i es l, Forall (fun e => fst e < length l) es ->
  (forall k, k < length l -> fine n (nth k l {| data := []; nnz := 0 |}) /\ full (nth k l {| data := []; nnz := 0 |})) ->
  length (fold_left (fun l (e : nat * R) => at_vector l (fst e) (zero_at i)) es l) = length l /\
  forall k, k < length l ->
    nth k (fold_left (fun l (e : nat * R) => at_vector l (fst e) (zero_at i)) es l) {| data := []; nnz := 0 |} =
    if existsb (fun e => Nat.eqb k (fst e)) es then modified (Nat.eqb i) 0 (nth k l {| data := []; nnz := 0 |})
    else nth k l {| data := []; nnz := 0 |}.
Proof.
  intros n i. induction es as [|e es IH]; intros l Hes Hl; [split; reflexivity|]. cbn [fold_left existsb].
  inversion Hes as [|? ? He Hes']; subst.
  assert (L : length (at_vector l (fst e) (zero_at i)) = length l) by (apply (at_vector_spec l (fst e) (zero_at i) 0 He)).
  assert (Z : zero_at i (nth (fst e) l {| data := []; nnz := 0 |}) = modified (Nat.eqb i) 0 (nth (fst e) l {| data := []; nnz := 0 |})).
  { apply (zero_at_full n); apply Hl; exact He. }
  destruct (IH (at_vector l (fst e) (zero_at i))) as [A B].
  - rewrite L. exact Hes'.
  - rewrite L. intros k Hk. rewrite (proj2 (at_vector_spec l (fst e) (zero_at i) k He)).
    destruct (Nat.eqb_spec k (fst e)) as [->|]; [|apply Hl; exact Hk]. rewrite Z. destruct (Hl _ He).
    split; [apply modified_fine|apply modified_full]; assumption.
  - rewrite A. split; [exact L|]. intros k Hk. rewrite B by (rewrite L; exact Hk).
    rewrite (proj2 (at_vector_spec l (fst e) (zero_at i) k He)).
    destruct (Nat.eqb_spec k (fst e)) as [->|]; cbn [orb]; [|reflexivity]. rewrite Z.
    destruct (existsb _ es); [apply modified_twice|reflexivity].
Qed.

(** Writing one coefficient. *)
Lemma same_place : forall m i j i' j', is_at i j i' j' = (Nat.eqb (outer_of m i' j') (outer_of m i j) && Nat.eqb (inner_of m i j) (inner_of m i' j'))%bool.
Proof.
  intros. unfold is_at, outer_of, inner_of. destruct (rowMajor m); [rewrite (Nat.eqb_sym i i'); reflexivity|].
  rewrite (Nat.eqb_sym j j'). apply andb_comm.
Qed.
Lemma coeffRef_spec : forall m i j f free, good m -> inside m i j ->
  good (coeffRef m i j f free) /\
  (forall i' j', inside m i' j' -> entry (coeffRef m i j f free) i' j' =
     if is_at i j i' j' then Some (f (coefficient m i j)) else entry m i' j').
Proof.
  intros m i j f free G Hin. pose proof (inside_outer _ _ _ Hin) as Ho. pose proof (inside_inner _ _ _ Hin) as Hi.
  pose proof (good_vector _ _ G Ho) as F. rewrite coefficient_entry.
  unfold coeffRef. set (k := outer_of m i j) in *. set (key := inner_of m i j) in *.
  unfold entry at 2. fold k key. unfold get. destruct (search (data (vector m k)) (nnz (vector m k)) key) as [p|] eqn:E.
  - pose proof (search_some _ _ _ _ E) as [Hp Hk]. set (x := f (value (data (vector m k)) p)).
    assert (L : k < length (vectors m)) by (rewrite (proj1 G); exact Ho).
    set (g := fun v => {| data := assign (data v) p (f (value (data v) p)); nnz := nnz v |}).
    destruct (at_vector_spec (vectors m) k g 0 L) as [Hl _].
    assert (A : active (g (vector m k)) = modify (Nat.eqb key) x (active (vector m k))).
    { unfold g, active. cbn [data nnz]. destruct F as (F1 & F2 & _). rewrite assign_modify by assumption. rewrite Hk. reflexivity. }
    assert (F' : fine (innerSize m) (g (vector m k))).
    { destruct F as (F1 & F2 & F3). unfold fine, increasing. rewrite A, modify_fst. split; [|split].
      - unfold g. cbn [data nnz]. rewrite assign_length by lia. exact F1.
      - exact F2.
      - apply Forall_forall. intros e He. unfold modify in He. apply in_map_iff in He. destruct He as (e' & <- & He').
        apply (proj1 (Forall_forall _ _) F3) in He'. destruct (key =? fst e'); exact He'. }
    assert (V : forall q, q < outerSize m -> vector (with_vectors m (at_vector (vectors m) k g)) q =
                if Nat.eqb q k then g (vector m k) else vector m q).
    { intros q Hq. apply (at_vector_spec (vectors m) k g q L). }
    split.
    + apply good_intro; [cbn [vectors with_vectors]; rewrite Hl; apply G|]. intros q Hq. change (outerSize _) with (outerSize m) in Hq.
      rewrite V by exact Hq. destruct (Nat.eqb q k); [exact F'|exact (good_vector m q G Hq)].
    + intros i' j' Hin'. unfold entry. change (outer_of (with_vectors _ _) i' j') with (outer_of m i' j').
      change (inner_of (with_vectors _ _) i' j') with (inner_of m i' j'). rewrite V by (apply inside_outer; exact Hin').
      rewrite (same_place m). fold k key. destruct (Nat.eqb_spec (outer_of m i' j') k) as [Ek|]; cbn [andb]; [|reflexivity].
      rewrite (get_assoc (innerSize m)) by exact F'. rewrite A, assoc_modify.
      rewrite Ek, <- (get_assoc (innerSize m)) by exact F.
      destruct (Nat.eqb_spec key (inner_of m i' j')) as [Ei|].
      * rewrite <- Ei. unfold get. rewrite E. reflexivity.
      * destruct (get _ _); reflexivity.
  - assert (N : assoc key (active (vector m k)) = None).
    { rewrite <- (get_assoc (innerSize m)) by exact F. unfold get. rewrite E. reflexivity. }
    set (a := fun q => if Nat.eqb q k then insert_sorted key (f 0%R) (active (vector m q)) else active (vector m q)).
    assert (P : forall q, q < outerSize m -> fine (innerSize m) {| data := a q ++ free q; nnz := length (a q) |} /\
                 active {| data := a q ++ free q; nnz := length (a q) |} = a q).
    { intros q Hq. apply with_room; pose proof (good_vector _ _ G Hq) as (_ & F2 & F3); unfold a;
        destruct (Nat.eqb_spec q k) as [->|]; try assumption.
      - apply insert_sorted_increasing; assumption.
      - apply Forall_forall. intros e He. apply insert_sorted_in in He. destruct He as [->|He]; [exact Hi|].
        apply (proj1 (Forall_forall _ _) F3). exact He. }
    split.
    + apply good_intro; [cbn [vectors with_vectors]; rewrite map_length, seq_length; reflexivity|]. intros q Hq.
      rewrite vector_map_seq by exact Hq. apply P. exact Hq.
    + intros i' j' Hin'. pose proof (inside_outer _ _ _ Hin') as Ho'. unfold entry.
      change (outer_of (with_vectors _ _) i' j') with (outer_of m i' j').
      change (inner_of (with_vectors _ _) i' j') with (inner_of m i' j'). rewrite vector_map_seq by exact Ho'.
      cbv zeta. fold (active (vector m (outer_of m i' j'))). change (if outer_of m i' j' =? k then _ else _) with (a (outer_of m i' j')).
      rewrite (get_assoc (innerSize m)) by (apply P; exact Ho'). rewrite (proj2 (P _ Ho')). unfold a.
      rewrite (same_place m). fold k key. destruct (Nat.eqb_spec (outer_of m i' j') k) as [Ek|]; cbn [andb].
      * rewrite Ek, assoc_insert_sorted by exact N.
        destruct (Nat.eqb key (inner_of m i' j')); [reflexivity|].
        symmetry. apply (get_assoc (innerSize m)). exact F.
      * symmetry. apply (get_assoc (innerSize m)). apply good_vector; assumption.
Qed.

(** setFromTriplets, makeCompressed, empty matrices. *)
Lemma swapped : forall ts i j,
  coeff (map (fun t => (col_of t, row_of t, value_of t)) ts) j i = coeff ts i j /\
  stored (map (fun t => (col_of t, row_of t, value_of t)) ts) j i = stored ts i j.
Proof.
  intros ts i j. rewrite !coeff_alt, map_map. unfold stored.
  assert (A : forall t : triplet, at_position j i (col_of t, row_of t, value_of t) = at_position i j t).
  { intros t. unfold at_position. cbn. apply andb_comm. }
  split.
  - apply Rsum_ext. intros t _. rewrite A. reflexivity.
  - induction ts as [|t ts IH]; [reflexivity|]. cbn [map existsb]. rewrite A, IH. reflexivity.
Qed.
Lemma setFromTriplets_spec : forall m ts,
  good (setFromTriplets m ts) /\ isCompressed (setFromTriplets m ts) /\
  (forall i j, inside m i j -> entry (setFromTriplets m ts) i j = if stored ts i j then Some (coeff ts i j) else None).
Proof.
  intros m ts. unfold setFromTriplets.
  set (l := fun k => if rowMajor m then inner_vector (map (fun t => (col_of t, row_of t, value_of t)) ts) (cols m) k
                     else inner_vector ts (rows m) k).
  change (with_vectors m _) with (with_vectors m (map (fun k => {| data := l k; nnz := length (l k) |}) (seq 0 (outerSize m)))).
  assert (S : forall k, increasing (l k) /\ Forall (fun e => fst e < innerSize m) (l k)).
  { intros k. unfold l, innerSize. destruct (rowMajor m); destruct (inner_vector_spec ts (rows m) k) as (A & B & _);
      destruct (inner_vector_spec (map (fun t => (col_of t, row_of t, value_of t)) ts) (cols m) k) as (A' & B' & _); auto. }
  assert (F : forall k, fine (innerSize m) {| data := l k; nnz := length (l k) |} /\ active {| data := l k; nnz := length (l k) |} = l k).
  { intros k. destruct (S k) as [A B]. pose proof (with_room (innerSize m) (l k) [] A B) as W. rewrite app_nil_r in W. exact W. }
  split; [|split].
  - apply good_intro; [cbn [vectors with_vectors]; rewrite map_length, seq_length; reflexivity|].
    intros k Hk. rewrite vector_map_seq by exact Hk. apply F.
  - apply compressed_intro; [cbn [vectors with_vectors]; rewrite map_length, seq_length; reflexivity|].
    intros k Hk. rewrite vector_map_seq by exact Hk. reflexivity.
  - intros i j Hin. unfold entry. change (outer_of (with_vectors _ _) i j) with (outer_of m i j).
    change (inner_of (with_vectors _ _) i j) with (inner_of m i j).
    rewrite vector_map_seq by (apply inside_outer; exact Hin). rewrite (get_assoc (innerSize m)) by apply F.
    rewrite (proj2 (F _)). pose proof (inside_inner _ _ _ Hin) as Hi. unfold l, outer_of, inner_of, innerSize in *.
    destruct (rowMajor m).
    + rewrite (proj2 (proj2 (inner_vector_spec _ _ _))) by exact Hi. destruct (swapped ts i j) as [-> ->]. reflexivity.
    + rewrite (proj2 (proj2 (inner_vector_spec _ _ _))) by exact Hi. reflexivity.
Qed.
Lemma makeCompressed_spec : forall m, good m ->
  good (makeCompressed m) /\ isCompressed (makeCompressed m) /\
  (forall i j, inside m i j -> entry (makeCompressed m) i j = entry m i j).
Proof.
  intros m G. unfold makeCompressed. set (f := fun v => {| data := firstn (nnz v) (data v); nnz := nnz v |}).
  assert (V : forall k, k < outerSize m -> vector (with_vectors m (map f (vectors m))) k = f (vector m k)).
  { intros k Hk. apply vector_map. rewrite (proj1 G). exact Hk. }
  assert (A : forall v, active (f v) = active v).
  { intros v. unfold active, f. cbn [data nnz]. rewrite firstn_firstn, Nat.min_id. reflexivity. }
  assert (L : length (map f (vectors m)) = outerSize m) by (rewrite map_length; apply G).
  assert (F : forall k, k < outerSize m -> fine (innerSize m) (f (vector m k))).
  { intros k Hk. pose proof (good_vector _ _ G Hk) as (F1 & F2 & F3). unfold fine. rewrite A. cbn [data nnz f].
    rewrite firstn_length. split; [lia|auto]. }
  split; [|split].
  - apply good_intro; [exact L|]. intros k Hk. rewrite V by exact Hk. apply F. exact Hk.
  - apply compressed_intro; [exact L|]. intros k Hk. rewrite V by exact Hk. unfold full, f. cbn [data nnz].
    rewrite firstn_length. destruct (good_vector _ _ G Hk) as [? _]. lia.
  - intros i j Hin. pose proof (inside_outer _ _ _ Hin) as Ho. unfold entry.
    change (outer_of (with_vectors _ _) i j) with (outer_of m i j). change (inner_of (with_vectors _ _) i j) with (inner_of m i j).
    rewrite V by exact Ho. rewrite !(get_assoc (innerSize m)); [rewrite A; reflexivity|apply good_vector; assumption|apply F; exact Ho].
Qed.
Lemma empty_spec : forall rm r c, good (empty_sparse rm r c) /\ isCompressed (empty_sparse rm r c) /\
  (forall i j, inside (empty_sparse rm r c) i j -> entry (empty_sparse rm r c) i j = None).
Proof.
  intros rm r c. set (m := empty_sparse rm r c).
  assert (V : forall k, k < outerSize m -> vector m k = {| data := []; nnz := 0 |}).
  { intros k Hk. unfold vector, m. cbn [vectors empty_sparse]. rewrite (nth_map_in _ _ 0) by (rewrite seq_length; exact Hk). reflexivity. }
  assert (L : length (vectors m) = outerSize m) by (cbn [m vectors empty_sparse]; rewrite map_length, seq_length; reflexivity).
  split; [|split].
  - apply good_intro; [exact L|]. intros k Hk. rewrite V by exact Hk. repeat split; constructor.
  - apply compressed_intro; [exact L|]. intros k Hk. rewrite V by exact Hk. reflexivity.
  - intros i j Hin. unfold entry. rewrite V by (apply inside_outer; exact Hin). reflexivity.
Qed.
