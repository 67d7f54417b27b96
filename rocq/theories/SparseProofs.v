(** Lemmas about the sparse matrices of SparseModel. *)

From Coq Require Import Reals Lra Lia List Arith Bool Permutation.
From Verif Require Import GridGeoModel ShapeModel Sums SparseModel.
Import ListNotations.
Open Scope R_scope.

Lemma Rsum_filter : forall (A : Type) (f : A -> R) p l,
  Rsum (map f (filter p l)) = Rsum (map (fun x => if p x then f x else 0) l).
Proof. induction l as [|x l IH]; simpl; [reflexivity|]. destruct (p x); simpl; rewrite IH; lra. Qed.

Lemma coeff_alt : forall ts i j, coeff ts i j = Rsum (map (fun t => if at_position i j t then value_of t else 0) ts).
Proof. intros. apply Rsum_filter. Qed.

Lemma coeff_app : forall a b i j, coeff (a ++ b) i j = coeff a i j + coeff b i j.
Proof. intros. rewrite !coeff_alt, map_app. apply Rsum_app. Qed.
Lemma coeff_flat_map : forall (A : Type) (f : A -> list triplet) l i j,
  coeff (flat_map f l) i j = Rsum (map (fun a => coeff (f a) i j) l).
Proof.
  intros. induction l as [|a l IH]; [reflexivity|]. cbn [flat_map map]. rewrite coeff_app, IH. reflexivity.
Qed.

Lemma coeff_permutation : forall a b i j, Permutation a b -> coeff a i j = coeff b i j.
Proof. intros a b i j H. rewrite !coeff_alt. apply Rsum_permutation. apply Permutation_map. exact H. Qed.

Lemma not_stored : forall ts i j, stored ts i j = false -> coeff ts i j = 0.
Proof.
  intros ts i j H. rewrite coeff_alt. apply Rsum_zero. intros t Ht. destruct (at_position i j t) eqn:E; [|reflexivity].
  assert (C : stored ts i j = true) by (apply existsb_exists; exists t; split; assumption). congruence.
Qed.

Lemma coeff_row_out : forall ts i j, Forall (fun t => row_of t <> i) ts -> coeff ts i j = 0.
Proof.
  intros ts i j H. apply not_stored. destruct (stored ts i j) eqn:E; [|reflexivity]. exfalso.
  apply existsb_exists in E. destruct E as (t & Ht & Hp). apply (proj1 (Forall_forall _ _) H) in Ht.
  unfold at_position in Hp. apply andb_true_iff in Hp. destruct Hp as [Hp _]. apply Nat.eqb_eq in Hp. contradiction.
Qed.

(** Sum of a row against a function of the column. *)
Lemma coeff_row_sum : forall ts i n (g : nat -> R), Forall (fun t => (col_of t < n)%nat) ts ->
  Rsum (map (fun j => coeff ts i j * g j) (seq 0 n)) =
  Rsum (map (fun t => if Nat.eqb (row_of t) i then value_of t * g (col_of t) else 0) ts).
Proof.
  intros ts i n g H.
  rewrite (Rsum_ext _ _ (fun j => Rsum (map (fun t => if at_position i j t then value_of t * g j else 0) ts))).
  2:{ intros j _. rewrite coeff_alt, <- Rsum_scal_r. apply Rsum_ext. intros t _. destruct (at_position i j t); lra. }
  rewrite Rsum_swap. apply Rsum_ext. intros t Ht. unfold at_position. apply (proj1 (Forall_forall _ _) H) in Ht.
  destruct (Nat.eqb (row_of t) i); cbn [andb].
  - apply (Rsum_delta (fun j => value_of t * g j)). exact Ht.
  - apply Rsum_zero. reflexivity.
Qed.

(** The binary search returns the first position of [start, end) whose index is not below the key. *)
Lemma search_loop_spec : forall index key fuel start end_, (end_ - start <= fuel)%nat -> (start <= end_)%nat ->
  (forall a b, (start <= a <= b)%nat -> (b < end_)%nat -> (index a <= index b)%nat) ->
  (start <= searchLowerIndex_loop index key fuel start end_ <= end_)%nat /\
  (forall p, (start <= p < searchLowerIndex_loop index key fuel start end_)%nat -> (index p < key)%nat) /\
  (forall p, (searchLowerIndex_loop index key fuel start end_ <= p < end_)%nat -> (key <= index p)%nat).
Proof.
  intros index key. induction fuel as [|fuel IH]; intros start end_ Hf Hse Hs; cbn [searchLowerIndex_loop].
  { assert (start = end_) by lia. subst. repeat split; intros; lia. }
  destruct (Nat.ltb_spec start end_) as [Hlt|Hge]; [|assert (start = end_) by lia; subst; repeat split; intros; lia].
  assert (Hm : (start <= Nat.div2 (end_ + start) < end_)%nat).
  { rewrite Nat.div2_div. split; [apply Nat.div_le_lower_bound; lia|apply Nat.div_lt_upper_bound; lia]. }
  set (mid := Nat.div2 (end_ + start)) in *. destruct (Nat.ltb_spec (index mid) key) as [Hk|Hk].
  - destruct (IH (mid + 1)%nat end_) as (A & B & C); [lia|lia|intros; apply Hs; lia|]. repeat split.
    + lia.
    + lia.
    + intros p Hp. destruct (Nat.le_gt_cases p mid) as [L|L].
      * apply Nat.le_lt_trans with (index mid); [apply Hs; lia|exact Hk].
      * apply B. lia.
    + exact C.
  - destruct (IH start mid) as (A & B & C); [lia|lia|intros; apply Hs; lia|]. repeat split.
    + lia.
    + lia.
    + exact B.
    + intros p Hp. destruct (Nat.le_gt_cases mid p) as [L|L].
      * apply Nat.le_trans with (index mid); [exact Hk|apply Hs; lia].
      * apply C. lia.
Qed.
Lemma search_spec : forall index key start end_, (start <= end_)%nat ->
  (forall a b, (start <= a <= b)%nat -> (b < end_)%nat -> (index a <= index b)%nat) ->
  (start <= searchLowerIndex index start end_ key <= end_)%nat /\
  (forall p, (start <= p < searchLowerIndex index start end_ key)%nat -> (index p < key)%nat) /\
  (forall p, (searchLowerIndex index start end_ key <= p < end_)%nat -> (key <= index p)%nat).
Proof. intros. apply search_loop_spec; auto. Qed.
