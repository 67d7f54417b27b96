(** C78: operations on the vectors of the mechanical states. *)

From Coq Require Import Reals Lra Lia.
From Coq Require Import List Arith Bool.
From Verif Require Import ShapeModel Sums VecOpsModel.
Import ListNotations.
Open Scope R_scope.

(** ** Lemmas *)

Lemma same_entries : forall V (a b : list V), (forall k, nth_error a k = nth_error b k) -> a = b.
Proof.
  intros V. induction a as [|x a IH]; intros [|y b] H; [reflexivity|discriminate (H 0%nat)|discriminate (H 0%nat)|].
  pose proof (H 0%nat) as E. cbn in E. inversion E; subst y. f_equal. apply IH. intros k. exact (H (S k)).
Qed.
Lemma write_length : forall V (a : list V) i v, length (write V a i v) = length a.
Proof. intros V. induction a as [|x a IH]; intros [|i] v; cbn; auto. Qed.
Lemma write_nth : forall V (a : list V) i v k, nth_error (write V a i v) k = if Nat.eqb k i then (if (i <? length a)%nat then Some v else None) else nth_error a k.
Proof.
  intros V. induction a as [|x a IH]; intros i v k.
  - cbn [write length]. destruct (Nat.eqb_spec k i); destruct k; cbn; reflexivity.
  - destruct i as [|i]; [destruct k; reflexivity|]. destruct k as [|k]; [reflexivity|]. cbn [write nth_error Nat.eqb length]. rewrite IH.
    destruct (Nat.eqb k i); [|reflexivity]. destruct (Nat.ltb_spec i (length a)), (Nat.ltb_spec (S i) (S (length a))); try lia; reflexivity.
Qed.
Lemma writes : forall V (b : list V) off a, (off + length b <= length a)%nat ->
  let r := fold_left (fun a p => write V a (fst p) (snd p)) (combine (seq off (length b)) b) a in
  length r = length a /\ forall k, nth_error r k = if (off <=? k)%nat && (k <? off + length b)%nat then nth_error b (k - off) else nth_error a k.
Proof.
  intros V. induction b as [|x b IH]; intros off a H; cbv zeta.
  - cbn [length seq combine fold_left]. split; [reflexivity|]. intros k. destruct (Nat.leb_spec off k), (Nat.ltb_spec k (off + 0)); try lia; reflexivity.
  - cbn [length seq combine fold_left fst snd]. destruct (IH (S off) (write V a off x)) as [L N]; [rewrite write_length; cbn in H; lia|].
    split; [rewrite L; apply write_length|]. intros k. rewrite N, write_nth. cbn [length] in H.
    destruct (Nat.leb_spec (S off) k), (Nat.ltb_spec k (S off + length b)), (Nat.leb_spec off k), (Nat.ltb_spec k (off + S (length b))); cbn [andb]; try lia;
      destruct (Nat.eqb_spec k off); try lia.
    + replace (k - off)%nat with (S (k - S off)) by lia. reflexivity.
    + reflexivity.
    + subst k. rewrite Nat.sub_diag. destruct (Nat.ltb_spec off (length a)); [reflexivity|lia].
    + reflexivity.
Qed.
Lemma resize_length : forall V (z : V) n a, length (resize V z n a) = n.
Proof. intros V z n a. unfold resize. rewrite app_length, firstn_length, repeat_length. lia. Qed.
Lemma internal_copy_spec : forall V (z : V) a b, internal_copy V z a b = b ++ skipn (length b) a.
Proof.
  intros V z a b. unfold internal_copy. set (a' := if (length a <? length b)%nat then resize V z (length b) a else a).
  assert (La : (length b <= length a')%nat).
  { unfold a'. destruct (Nat.ltb_spec (length a) (length b)); [rewrite resize_length; lia|lia]. }
  destruct (writes V b 0 a' La) as [L N]. cbv zeta in L, N. 
  assert (Sk : skipn (length b) a' = skipn (length b) a).
  { unfold a'. destruct (Nat.ltb_spec (length a) (length b)) as [Hl|Hl]; [|reflexivity].
    rewrite !skipn_all2; [reflexivity|lia|rewrite resize_length; lia]. }
  rewrite <- Sk. clearbody a'. clear Sk.
  set (r := fold_left _ _ _) in *. clearbody r. 
  apply same_entries. intros k. rewrite N. cbn [Nat.leb andb Nat.add]. rewrite Nat.sub_0_r.
  destruct (Nat.ltb_spec k (length b)) as [Hk|Hk].
  - rewrite nth_error_app1 by exact Hk. reflexivity.
  - rewrite nth_error_app2 by exact Hk. rewrite <- (firstn_skipn (length b) a') at 1. rewrite nth_error_app2; rewrite firstn_length_le by exact La; [reflexivity|exact Hk].
Qed.

(** ** a := b *)

(** When every concerned state has one of the three supported templates, the visit ends; every concerned state whose vector a is not longer than its vector
    b has a equal to b afterwards, and every other state is as it was.  Vectors b are never changed.
    Missing: the states whose vector a is longer (below). *)
Theorem C78_copy_partial : forall V (z : V) m om scene,
  (forall s, In s scene -> concerned V m om s = true -> name V s <> OtherTemplate) ->
  exists scene', visit V z m om scene = (scene', true) /\ length scene' = length scene /\
    forall k s, nth_error scene k = Some s -> exists s', nth_error scene' k = Some s' /\ vec_b V s' = vec_b V s /\
      (concerned V m om s = true -> (length (vec_a V s) <= length (vec_b V s))%nat -> vec_a V s' = vec_b V s) /\
      (concerned V m om s = false -> s' = s).
Proof.
  intros V z m om. induction scene as [|s l IH]; intros H; [exists []; repeat split; intros [|k] s E; discriminate|].
  destruct IH as (l' & E & L & K); [intros x Hx; apply H; right; exact Hx|]. cbn [visit]. rewrite E. cbn [fst snd].
  destruct (concerned V m om s) eqn:C.
  - pose proof (H s (or_introl eq_refl) C) as T. 
    assert (Ec : copy V z s = Some (State V (mapped V s) (name V s) (internal_copy V z (vec_a V s) (vec_b V s)) (vec_b V s)))
      by (unfold copy; destruct (name V s); try reflexivity; congruence).
    rewrite Ec. eexists. split; [reflexivity|]. split; [cbn; lia|]. intros [|k] x Ex; [|apply K, Ex]. cbn in Ex. inversion Ex; subst x.
    eexists. split; [reflexivity|]. split; [reflexivity|]. split; [|congruence]. intros _ Hl. cbn. rewrite internal_copy_spec, skipn_all2 by exact Hl. apply app_nil_r.
  - eexists. split; [reflexivity|]. split; [cbn; lia|]. intros [|k] x Ex; [|apply K, Ex]. cbn in Ex. inversion Ex; subst x.
    exists s. repeat split; congruence.
Qed.
Print Assumptions C78_copy_partial.

(** Which states are concerned: by default the independent ones; all of them with [mapped]; the mapped ones with [only_mapped]. *)
Theorem C78_concerned : forall V (s : state V),
  concerned V false false s = negb (mapped V s) /\ concerned V true false s = true /\
  forall m, concerned V m true s = mapped V s.
Proof. intros V s. unfold concerned. destruct (mapped V s); repeat split; intros []; reflexivity. Qed.
Print Assumptions C78_concerned.

(** A longer vector a keeps its end: it never becomes b. *)
Theorem C78_longer_refuted : forall V (z : V) m om s, concerned V m om s = true -> name V s <> OtherTemplate ->
  (length (vec_b V s) < length (vec_a V s))%nat ->
  exists s', visit V z m om [s] = ([s'], true) /\ length (vec_a V s') = length (vec_a V s) /\ vec_a V s' <> vec_b V s /\
    forall k, (length (vec_b V s) <= k)%nat -> nth_error (vec_a V s') k = nth_error (vec_a V s) k.
Proof.
  intros V z m om s C T Hl. cbn [visit]. rewrite C.
  assert (Ec : copy V z s = Some (State V (mapped V s) (name V s) (internal_copy V z (vec_a V s) (vec_b V s)) (vec_b V s)))
    by (unfold copy; destruct (name V s); try reflexivity; congruence).
  rewrite Ec. eexists. split; [reflexivity|]. cbn. rewrite internal_copy_spec.
  assert (L : length (vec_b V s ++ skipn (length (vec_b V s)) (vec_a V s)) = length (vec_a V s)) by (rewrite app_length, skipn_length; lia).
  split; [exact L|]. split; [intros E; rewrite E in L; lia|]. intros k Hk. rewrite nth_error_app2 by exact Hk.
  rewrite <- (firstn_skipn (length (vec_b V s)) (vec_a V s)) at 2. rewrite nth_error_app2; rewrite firstn_length_le by lia; [reflexivity|exact Hk].
Qed.
Print Assumptions C78_longer_refuted.

(** An unsupported template stops the visit: the states before it are already changed, those after it are not. *)
Theorem C78_exception : forall V (z : V) m om before s after,
  (forall t, In t before -> concerned V m om t = true -> name V t <> OtherTemplate) ->
  concerned V m om s = true -> name V s = OtherTemplate ->
  visit V z m om (before ++ s :: after) = (fst (visit V z m om before) ++ s :: after, false).
Proof.
  intros V z m om before s after H C T. induction before as [|t l IH].
  - cbn [app visit]. rewrite C. unfold copy. rewrite T. reflexivity.
  - cbn [app visit]. rewrite IH by (intros x Hx; apply H; right; exact Hx).
    destruct (concerned V m om t) eqn:Ct; [|reflexivity]. unfold copy. pose proof (H t (or_introl eq_refl) Ct) as N.
    destruct (name V t); try reflexivity; congruence.
Qed.
Print Assumptions C78_exception.

(** ** dot *)

Lemma accumulate_spec : forall l v1 v2 t, (forall i, In i l -> (i < length v1)%nat /\ (i < length v2)%nat) ->
  accumulate l v1 v2 t = Some (t + Rsum (map (fun i => nth i v1 0 * nth i v2 0) l)).
Proof.
  induction l as [|i l IH]; intros v1 v2 t H; [cbn; f_equal; ring|]. cbn [accumulate map]. destruct (H i (or_introl eq_refl)) as [H1 H2].
  rewrite (nth_error_nth' v1 0 H1), (nth_error_nth' v2 0 H2), IH by (intros j Hj; apply H; right; exact Hj). f_equal. unfold Rsum. cbn. ring.
Qed.
(** Vectors of the same size: the scalar product, whatever their types. *)
Theorem C78_dot : forall v1 v2, length (elements v1) = length (elements v2) ->
  dot v1 v2 = Some (Rsum (map (fun p => fst p * snd p) (combine (elements v1) (elements v2)))) /\ dot v1 v2 = dot v2 v1.
Proof.
  assert (G : forall v1 v2, length (elements v1) = length (elements v2) ->
     dot v1 v2 = Some (Rsum (map (fun i => nth i (elements v1) 0 * nth i (elements v2) 0) (seq 0 (length (elements v1)))))).
  { intros v1 v2 E.
    assert (L : forall u v, length (elements u) = length (elements v) ->
       dot_loop u v = Some (Rsum (map (fun i => nth i (elements u) 0 * nth i (elements v) 0) (seq 0 (length (elements u)))))).
    { intros u v Eu. unfold dot_loop. rewrite accumulate_spec; [f_equal; ring|]. intros i Hi. apply in_seq in Hi. lia. }
    pose proof (L v1 v2 E) as A. pose proof (L v2 v1 (eq_sym E)) as B. rewrite <- E in B.
    rewrite (Rsum_ext nat _ (fun i => nth i (elements v1) 0 * nth i (elements v2) 0)) in B by (intros; ring).
    unfold dot. destruct (type v1), (type v2); assumption. }
  intros v1 v2 E. split.
  - rewrite (G v1 v2 E). f_equal. 
    transitivity (Rsum (map (fun p => fst p * snd p) (map (fun i => (nth i (elements v1) 0, nth i (elements v2) 0)) (seq 0 (length (elements v1)))))); [rewrite map_map; reflexivity|].
    f_equal. f_equal. clear G. destruct v1 as [t1 a], v2 as [t2 b]. cbn [elements] in *. clear t1 t2. revert b E.
    induction a as [|x a IH]; intros [|y b] E; try discriminate; [reflexivity|]. cbn [length seq map nth combine]. f_equal.
    rewrite <- (IH b) by (cbn in E; lia). rewrite <- seq_shift, map_map. reflexivity.
  - rewrite (G v1 v2 E), (G v2 v1 (eq_sym E)), <- E. f_equal. apply Rsum_ext. intros; ring.
Qed.
Print Assumptions C78_dot.

Example C78_cases :
  let s := State nat false Vec3 [9; 9]%nat [1; 2; 3]%nat in
  let t := State nat true Vec1 [9; 9; 9]%nat [1; 2]%nat in
  map (vec_a nat) (fst (visit nat 0%nat true false [s; t])) = [[1; 2; 3]; [1; 2; 9]]%nat /\
  map (vec_a nat) (fst (visit nat 0%nat false false [s; t])) = [[1; 2; 3]; [9; 9; 9]]%nat /\
  map (vec_a nat) (fst (visit nat 0%nat false true [s; t])) = [[9; 9]; [1; 2; 9]]%nat.
Proof. repeat split. Qed.
Example C78_dot_case : dot (Vector OtherVector [1; 2]) (Vector FullFloat [3; 4]) = Some 11.
Proof. destruct (C78_dot (Vector OtherVector [1; 2]) (Vector FullFloat [3; 4]) eq_refl) as [-> _]. f_equal. cbn. lra. Qed.
