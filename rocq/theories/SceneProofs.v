(** Proofs about the linear system of a scene. *)

From Coq Require Import Reals Lra Lia List Arith Bool.
From Verif Require Import GridGeoModel ShapeModel Sums SparseModel SparseProofs EigenMatrixModel EigenMatrixSpec EigenMatrixProofs EigenMatrixProofs2 EigenMatrixProofs3.
From Verif Require Import SceneModel SceneSpec.
Import ListNotations.
Open Scope nat_scope.

(** ** The visit *)
Lemma visit_length l : forall seen, length (visit l seen) = length seen + length l.
Proof. induction l as [|x l IH]; intros seen; cbn [visit]; [cbn; lia|]. rewrite IH, app_length. cbn [length]. lia. Qed.
Lemma visit_prefix l : forall seen k, k < length seen -> nth k (visit l seen) false = nth k seen false.
Proof.
  induction l as [|x l IH]; intros seen k K; [reflexivity|]. cbn [visit]. rewrite IH by (rewrite app_length; lia). apply app_nth1. exact K.
Qed.
Lemma visit_spec l : forall seen s, length seen <= s < length seen + length l ->
  (forall p m J, mapping (nth (s - length seen) l no_state) = Some (p, m, J) -> p < s) ->
  nth s (visit l seen) false =
    match mapping (nth (s - length seen) l no_state) with None => true | Some (p, m, _) => (m && nth p (visit l seen) false)%bool end.
Proof.
  induction l as [|x l IH]; intros seen s H P; cbn [length] in H; [lia|]. cbn [visit].
  set (b := match mapping x with None => true | Some (p, mapped, _) => (mapped && nth p seen false)%bool end).
  destruct (Nat.eq_dec s (length seen)) as [-> | N].
  - rewrite Nat.sub_diag in *. cbn [nth] in *. rewrite visit_prefix by (rewrite app_length; cbn [length]; lia).
    rewrite app_nth2, Nat.sub_diag by lia. cbn [nth]. unfold b. destruct (mapping x) as [[[p m] J]|] eqn:E; [|reflexivity].
    specialize (P p m J eq_refl). rewrite visit_prefix by (rewrite app_length; cbn [length]; lia). rewrite app_nth1 by lia. reflexivity.
  - replace (s - length seen) with (S (s - length (seen ++ [b]))) in * by (rewrite app_length; cbn [length]; lia). cbn [nth] in *.
    apply IH; [rewrite app_length; cbn [length]; lia|exact P].
Qed.
Lemma visited_spec sc s : well_formed sc -> s < length (states sc) ->
  visited sc s = match mapping (state_at sc s) with None => true | Some (p, m, _) => (m && visited sc p)%bool end.
Proof.
  intros (W & _) S. unfold visited, state_at. pose proof (visit_spec (states sc) [] s) as H. cbn [length] in H. rewrite Nat.sub_0_r in H.
  apply H; [lia|]. intros p m J E. exact (W s p m J S E).
Qed.
Lemma visited_range sc s : visited sc s = true -> s < length (states sc).
Proof.
  intros H. destruct (Nat.lt_ge_cases s (length (states sc))) as [L|L]; [exact L|]. unfold visited in H.
  rewrite nth_overflow in H by (rewrite visit_length; cbn [length]; lia). discriminate.
Qed.
Lemma visited_counted sc s : well_formed sc -> (visited sc s = true <-> counted sc s).
Proof.
  intros W. split.
  - induction s as [s IH] using (well_founded_induction lt_wf). intros H. pose proof (visited_range _ _ H) as S.
    rewrite (visited_spec sc s W S) in H. destruct (mapping (state_at sc s)) as [[[p m] J]|] eqn:E.
    + apply andb_true_iff in H. destruct H as [-> H]. apply (counted_mapped sc s p J S E). apply IH; [|exact H]. exact (proj1 W s p true J S E).
    + apply counted_free; assumption.
  - intros H. induction H as [s S E|s p J S E H IH]; rewrite (visited_spec sc s W S), E; [reflexivity|exact IH].
Qed.
Lemma is_free_iff sc s : is_free sc s = true <-> mapping (state_at sc s) = None.
Proof. unfold is_free. destruct (mapping (state_at sc s)) as [[[p m] J]|]; split; congruence. Qed.

(** ** Positions *)
Lemma offset_S sc s : s < length (states sc) -> offset sc (S s) = offset sc s + own_rows (state_at sc s).
Proof.
  intros S. unfold offset, state_at. generalize no_state as d. revert S. generalize (states sc) as l. clear sc. induction s as [|s IH]; intros [|x l] S d; cbn [length] in S; try lia.
  - cbn. lia.
  - cbn [firstn map list_sum nth]. change (list_sum (?a :: ?b)) with (a + list_sum b) in *. cbn [firstn] in IH. specialize (IH l ltac:(lia) d).
    cbn [firstn map] in *. rewrite IH. lia.
Qed.
Lemma offset_le sc s t : s <= t -> offset sc s <= offset sc t.
Proof.
  intros H. induction H as [|t H IH]; [lia|]. destruct (Nat.lt_ge_cases t (length (states sc))) as [L|L].
  - rewrite offset_S by exact L. lia.
  - unfold offset in *. rewrite (firstn_all2 (n := S t)) by lia. rewrite (firstn_all2 (n := t)) in IH by lia. exact IH.
Qed.
Lemma offset_last sc : offset sc (length (states sc)) = dimension sc.
Proof. unfold offset. rewrite firstn_all. reflexivity. Qed.
Lemma own_free sc s : is_free sc s = true -> own_rows (state_at sc s) = size sc s.
Proof. unfold is_free, own_rows, size. destruct (mapping (state_at sc s)); [discriminate|reflexivity]. Qed.
Lemma own_mapped sc s : is_free sc s = false -> own_rows (state_at sc s) = 0.
Proof. unfold is_free, own_rows. destruct (mapping (state_at sc s)); [reflexivity|discriminate]. Qed.
Lemma offset_block sc s t : s < t -> s < length (states sc) -> is_free sc s = true -> offset sc s + size sc s <= offset sc t.
Proof. intros H S F. rewrite <- (own_free sc s F), <- offset_S by exact S. apply offset_le. exact H. Qed.
Lemma offset_in sc s : s < length (states sc) -> is_free sc s = true -> offset sc s + size sc s <= dimension sc.
Proof. intros S F. rewrite <- offset_last. apply offset_block; assumption. Qed.
(** A position of the global system belongs to one unknown of one state. *)
Lemma offset_inj sc s t i j : s < length (states sc) -> t < length (states sc) -> is_free sc s = true -> is_free sc t = true ->
  i < size sc s -> j < size sc t -> offset sc s + i = offset sc t + j -> s = t /\ i = j.
Proof.
  intros S T Fs Ft I J E. destruct (Nat.lt_trichotomy s t) as [L|[L|L]].
  - pose proof (offset_block sc s t L S Fs). lia.
  - subst t. lia.
  - pose proof (offset_block sc t s L T Ft). lia.
Qed.
Lemma offset_onto sc p : p < dimension sc -> exists s i, s < length (states sc) /\ is_free sc s = true /\ i < size sc s /\ p = offset sc s + i.
Proof.
  intros P. assert (H : forall k, k <= length (states sc) -> p < offset sc k -> exists s i, s < k /\ is_free sc s = true /\ i < size sc s /\ p = offset sc s + i).
  { induction k as [|k IH]; intros K Q; [cbn in Q; lia|]. destruct (Nat.lt_ge_cases p (offset sc k)) as [L|L].
    - destruct (IH ltac:(lia) L) as (s & i & A & B). exists s, i. split; [lia|exact B].
    - rewrite offset_S in Q by lia. destruct (is_free sc k) eqn:F.
      + rewrite (own_free sc k F) in Q. exists k, (p - offset sc k). repeat split; try lia. exact F.
      + rewrite (own_mapped sc k F) in Q. lia. }
  destruct (H (length (states sc)) (le_n _)) as (s & i & A & B & C & D); [rewrite offset_last; exact P|]. exists s, i. auto.
Qed.

Lemma gather_upto sc (u : nat -> nat -> R) k : k <= length (states sc) ->
  length (flat_map (fun s => if is_free sc s then map (u s) (seq 0 (size sc s)) else []) (seq 0 k)) = offset sc k.
Proof.
  induction k as [|k IH]; intros K; [reflexivity|]. rewrite seq_S, flat_map_app, app_length, IH by lia. rewrite offset_S by lia. cbn [flat_map Nat.add].
  rewrite app_nil_r. destruct (is_free sc k) eqn:F; [rewrite map_length, seq_length, (own_free sc k F)|rewrite (own_mapped sc k F)]; reflexivity.
Qed.
Lemma gather_length sc u : length (gather sc u) = dimension sc.
Proof. unfold gather. rewrite gather_upto by lia. apply offset_last. Qed.
Lemma gather_nth sc u s i : s < length (states sc) -> is_free sc s = true -> i < size sc s -> nth (offset sc s + i) (gather sc u) 0%R = u s i.
Proof.
  intros Ls F I. unfold gather. replace (length (states sc)) with (s + S (length (states sc) - S s)) by lia. rewrite seq_app, flat_map_app.
  rewrite app_nth2; rewrite gather_upto by lia; [|lia]. replace (offset sc s + i - offset sc s) with i by lia.
  cbn [seq flat_map Nat.add]. rewrite F. rewrite app_nth1 by (rewrite map_length, seq_length; exact I).
  rewrite (nth_indep _ 0%R (u s 0)) by (rewrite map_length, seq_length; exact I). rewrite map_nth, seq_nth by exact I. reflexivity.
Qed.

(** ** Sums *)
Open Scope R_scope.
Lemma sum_ext n f g : (forall i, (i < n)%nat -> f i = g i) -> sum n f = sum n g.
Proof. intros H. unfold sum. apply Rsum_ext. intros x Hx. apply in_seq in Hx. apply H. lia. Qed.
Lemma sum_plus n f g : sum n (fun i => f i + g i) = sum n f + sum n g.
Proof. apply Rsum_plus. Qed.
Lemma sum_zero n f : (forall i, (i < n)%nat -> f i = 0) -> sum n f = 0.
Proof. intros H. unfold sum. apply Rsum_zero. intros x Hx. apply in_seq in Hx. apply H. lia. Qed.
Lemma sum_scal_l n k f : sum n (fun i => k * f i) = k * sum n f.
Proof. apply Rsum_scal_l. Qed.
Lemma sum_scal_r n k f : sum n (fun i => f i * k) = sum n f * k.
Proof. apply Rsum_scal_r. Qed.
Lemma sum_swap n m f : sum n (fun i => sum m (fun j => f i j)) = sum m (fun j => sum n (fun i => f i j)).
Proof. apply Rsum_swap. Qed.
Lemma sum_delta n a f : (a < n)%nat -> sum n (fun j => if Nat.eqb a j then f j else 0) = f a.
Proof. apply Rsum_delta. Qed.
Lemma seq_offset m : forall k o, seq (o + k) m = map (fun i => (o + i)%nat) (seq k m).
Proof. induction m as [|m IH]; intros k o; [reflexivity|]. cbn [seq map]. rewrite <- (IH (S k) o). do 2 f_equal. lia. Qed.
Lemma sum_block n o m f : (o + m <= n)%nat -> (forall i, (i < n)%nat -> ~ (o <= i < o + m)%nat -> f i = 0) -> sum n f = sum m (fun i => f (o + i)%nat).
Proof.
  intros L Z. unfold sum. replace n with (o + (m + (n - o - m)))%nat by lia. rewrite !seq_app, !map_app, !Rsum_app. cbn [Nat.add].
  rewrite (Rsum_zero _ f (seq 0 o)) by (intros x Hx; apply in_seq in Hx; apply Z; lia).
  rewrite (Rsum_zero _ f (seq (o + m) _)) by (intros x Hx; apply in_seq in Hx; apply Z; lia).
  rewrite Rplus_0_l, Rplus_0_r. replace (seq o m) with (map (fun i => (o + i)%nat) (seq 0 m)); [rewrite map_map; reflexivity|].
  rewrite <- (seq_offset m 0 o), Nat.add_0_r. reflexivity.
Qed.

(** ** Product of two motions through the table of a list of calls *)
Lemma product_zero n a b : product n all_zero a b = 0.
Proof. apply sum_zero. intros i _. apply sum_zero. intros j _. unfold all_zero. ring. Qed.
Lemma product_plus n A B a b : product n (fun i j => A i j + B i j) a b = product n A a b + product n B a b.
Proof.
  unfold product. rewrite <- sum_plus. apply sum_ext. intros i _. rewrite <- sum_plus. apply sum_ext. intros j _. ring.
Qed.
Lemma product_ext n A B a b : (forall i j, (i < n)%nat -> (j < n)%nat -> a i * A i j * b j = a i * B i j * b j) -> product n A a b = product n B a b.
Proof. intros H. apply sum_ext. intros i I. apply sum_ext. intros j J. apply H; assumption. Qed.
Lemma product_add n t a b i j v : (i < n)%nat -> (j < n)%nat -> product n (meaning (Add i j v) t) a b = product n t a b + a i * v * b j.
Proof.
  intros I J. rewrite (product_ext n _ (fun i' j' => t i' j' + (if is_at i j i' j' then v else 0))).
  - rewrite product_plus. f_equal. unfold product. rewrite (sum_ext n _ (fun i' => if Nat.eqb i i' then a i' * v * b j else 0)); [apply sum_delta; exact I|].
    intros i' _. unfold is_at. destruct (Nat.eqb i i'); cbn [andb].
    + rewrite (sum_ext n _ (fun j' => if Nat.eqb j j' then a i' * v * b j' else 0)); [apply (sum_delta n j (fun j' => a i' * v * b j')); exact J|]. intros j' _. destruct (Nat.eqb j j'); ring.
    + apply sum_zero. intros; ring.
  - intros i' j' _ _. cbn [meaning]. destruct (is_at i j i' j'); ring.
Qed.
Lemma product_clear n t a b d : a d = 0 -> b d = 0 -> product n (meaning (ClearRowCol d) t) a b = product n t a b.
Proof.
  intros A B. apply product_ext. intros i j _ _. cbn [meaning]. unfold zero_where.
  destruct (Nat.eqb_spec d i) as [<- |_]; cbn [orb]; [rewrite A; ring|]. destruct (Nat.eqb_spec d j) as [<- |_]; [rewrite B; ring|reflexivity].
Qed.
Lemma product_set n t a b d v : a d = 0 -> product n (meaning (Set_ d d v) t) a b = product n t a b.
Proof.
  intros A. apply product_ext. intros i j _ _. cbn [meaning]. unfold is_at. destruct (Nat.eqb_spec d i) as [<- |_]; cbn [andb]; [rewrite A; ring|reflexivity].
Qed.
Lemma product_block n t a b o m B : (o + m <= n)%nat ->
  product n (meaning (AddBlock o o m m B) t) a b = product n t a b + product m B (fun i => a (o + i)%nat) (fun i => b (o + i)%nat).
Proof.
  intros L. rewrite (product_ext n _ (fun i j => t i j + (if in_block o o m m i j then B (i - o)%nat (j - o)%nat else 0))).
  - rewrite product_plus. f_equal. unfold product. rewrite (sum_block n o m _ L).
    + apply sum_ext. intros i I. rewrite (sum_block n o m _ L).
      * apply sum_ext. intros j J. replace (in_block o o m m (o + i) (o + j)) with true.
        -- replace (o + i - o)%nat with i by lia. replace (o + j - o)%nat with j by lia. reflexivity.
        -- symmetry. unfold in_block. rewrite !andb_true_iff, !Nat.leb_le, !Nat.ltb_lt. lia.
      * intros j _ J. replace (in_block o o m m (o + i) j) with false; [ring|]. symmetry. apply not_true_iff_false. unfold in_block.
        rewrite !andb_true_iff, !Nat.leb_le, !Nat.ltb_lt. lia.
    + intros i _ I. apply sum_zero. intros j _. replace (in_block o o m m i j) with false; [ring|]. symmetry. apply not_true_iff_false. unfold in_block.
      rewrite !andb_true_iff, !Nat.leb_le, !Nat.ltb_lt. lia.
  - intros i j _ _. cbn [meaning]. destruct (in_block o o m m i j); ring.
Qed.
Definition extend (t : table) (calls : list call) : table := fold_left (fun t c => meaning c t) calls t.
Lemma extend_app t l l' : extend t (l ++ l') = extend (extend t l) l'.
Proof. apply fold_left_app. Qed.
Lemma product_forces n a b o entries : forall t, (forall i j v, In (i, j, v) entries -> (o + i < n /\ o + j < n)%nat) ->
  product n (extend t (force_calls o entries)) a b = product n t a b + Rsum (map (fun e => a (o + fst (fst e))%nat * snd e * b (o + snd (fst e))%nat) entries).
Proof.
  induction entries as [|[[i j] v] entries IH]; intros t H; [cbn; ring|]. cbn [force_calls map extend fold_left].
  change (fold_left (fun t c => meaning c t) ?l ?x) with (extend x l). fold (force_calls o entries). rewrite IH by (intros; apply (H i0 j0 v0); right; assumption).
  cbn [fst snd]. destruct (H i j v (or_introl eq_refl)). rewrite product_add by assumption. change (Rsum (?x :: ?l)) with (x + Rsum l). ring.
Qed.
Lemma product_constraint n a b o groups : forall t, (forall g d, In g groups -> In d g -> a (o + d)%nat = 0 /\ b (o + d)%nat = 0) ->
  product n (extend t (constraint_calls o groups)) a b = product n t a b.
Proof.
  induction groups as [|g groups IH]; intros t H; [reflexivity|]. unfold constraint_calls. cbn [flat_map]. rewrite extend_app. fold (constraint_calls o groups).
  rewrite IH by (intros g' d Hg Hd; apply (H g' d); [right|]; assumption). rewrite extend_app.
  assert (G : forall d, In d g -> a (o + d)%nat = 0 /\ b (o + d)%nat = 0) by (intros d Hd; apply (H g d); [left; reflexivity|exact Hd]). clear H IH.
  assert (S : forall l t, (forall d, In d l -> a (o + d)%nat = 0 /\ b (o + d)%nat = 0) -> product n (extend t (map (fun d => Set_ (o + d) (o + d) 1) l)) a b = product n t a b).
  { clear. induction l as [|d l IH]; intros t H; [reflexivity|]. cbn [map extend fold_left]. change (fold_left (fun t c => meaning c t) ?l ?x) with (extend x l).
    rewrite IH by (intros; apply H; right; assumption). apply product_set. apply (H d). left; reflexivity. }
  rewrite S by exact G. clear S. revert t G. induction g as [|d g IH]; intros t G; [reflexivity|]. cbn [map extend fold_left].
  change (fold_left (fun t c => meaning c t) ?l ?x) with (extend x l). rewrite IH by (intros; apply G; right; assumption).
  apply product_clear; apply (G d); left; reflexivity.
Qed.

(** [J^t A' J] carries the product of the input to that of the output. *)
Lemma product_pulled m n J A a b : product n (pulled m J A) a b =
  product m A (fun i => sum n (fun k => J i k * a k)) (fun j => sum n (fun k => J j k * b k)).
Proof.
  unfold product, pulled. change (Rsum (map ?f (seq 0 m))) with (sum m f).
  transitivity (sum n (fun i => sum n (fun j => sum m (fun p => sum m (fun q => a i * (J p i * A p q * J q j) * b j))))).
  { apply sum_ext. intros i _. apply sum_ext. intros j _. rewrite <- sum_scal_l, <- sum_scal_r. apply sum_ext. intros p _.
    change (Rsum (map ?f (seq 0 m))) with (sum m f). rewrite <- sum_scal_l, <- sum_scal_r. reflexivity. }
  transitivity (sum m (fun p => sum m (fun q => sum n (fun i => sum n (fun j => a i * (J p i * A p q * J q j) * b j))))).
  { rewrite (sum_ext n _ (fun i => sum m (fun p => sum n (fun j => sum m (fun q => a i * (J p i * A p q * J q j) * b j))))) by (intros i _; apply sum_swap).
    rewrite sum_swap. apply sum_ext. intros p _.
    rewrite (sum_ext n _ (fun i => sum m (fun q => sum n (fun j => a i * (J p i * A p q * J q j) * b j)))) by (intros i _; apply sum_swap).
    apply sum_swap. }
  apply sum_ext. intros p _. apply sum_ext. intros q _.
  transitivity (sum n (fun i => J p i * a i * (A p q * sum n (fun j => J q j * b j)))).
  { apply sum_ext. intros i _. rewrite <- sum_scal_l, <- sum_scal_l. apply sum_ext. intros j _. ring. }
  rewrite sum_scal_r. ring.
Qed.
