(** Proofs about the neighbours in the fictitious grid (C35). *)

From Coq Require Import ZArith Reals Lra Lia.
From Coq Require Import List Arith Bool.
From Verif Require Import GridModel GridSpec GridProofs GridGeoModel GridGeoSpec GridGeoProofs FictModel FictSpec.
Import ListNotations.
Open Scope nat_scope.
Local Arguments Z.mul : simpl never.

(** * Lists and trees *)

Lemma in_mapi : forall (A B : Type) (f : nat -> A -> B) l k x,
  In x (mapi f k l) <-> exists i a, nth_error l i = Some a /\ x = f (k + i) a.
Proof.
  induction l as [|a l IH]; intros k x; simpl.
  - split; [tauto|]. intros (i & a & H & _). destruct i; discriminate.
  - split.
    + intros [<-|H].
      * exists 0, a. rewrite Nat.add_0_r. auto.
      * apply IH in H. destruct H as (i & b & H & ->). exists (S i), b. split; [exact H|f_equal; lia].
    + intros (i & b & H & ->). destruct i as [|i].
      * left. inversion H; subst. rewrite Nat.add_0_r. reflexivity.
      * right. apply IH. exists i, b. split; [exact H|f_equal; lia].
Qed.

Lemma nth_error_mapi : forall (A B : Type) (f : nat -> A -> B) l k i,
  nth_error (mapi f k l) i = option_map (f (k + i)) (nth_error l i).
Proof.
  induction l as [|a l IH]; intros k i; destruct i; simpl; try reflexivity.
  - rewrite Nat.add_0_r. reflexivity.
  - rewrite IH. replace (S k + i) with (k + S i) by lia. reflexivity.
Qed.

Lemma length_mapi : forall (A B : Type) (f : nat -> A -> B) l k, length (mapi f k l) = length l.
Proof. induction l; intros; simpl; auto. Qed.

Lemma tree_ind' : forall (A : Type) (P : tree A -> Prop),
  (forall a, P (Leaf a)) -> (forall childs, Forall P childs -> P (Node childs)) -> forall t, P t.
Proof.
  intros A P HL HN. fix IH 1. intros [a|childs].
  - apply HL.
  - apply HN. induction childs; constructor; auto.
Qed.

Lemma subtree_app : forall (A : Type) (t : tree A) w u,
  subtree t (w ++ u) = match subtree t u with Some s => subtree s w | None => None end.
Proof.
  induction w as [|i w IH]; intros u; simpl.
  - destruct (subtree t u); reflexivity.
  - rewrite IH. destruct (subtree t u) as [s|]; reflexivity.
Qed.

Lemma subtree_last : forall (A : Type) (t : tree A) w i,
  subtree t (w ++ [i]) = match t with Node childs => match nth_error childs i with Some c => subtree c w | None => None end
                         | Leaf _ => None end.
Proof. intros. rewrite subtree_app. destruct t; reflexivity. Qed.

Lemma subtree_leaf : forall (A : Type) (a : A) w s, subtree (Leaf a) w = Some s -> w = [] /\ s = Leaf a.
Proof.
  intros A a w s H. destruct w as [|i w] using rev_ind.
  - inversion H. auto.
  - rewrite subtree_last in H. discriminate.
Qed.

Lemma full_subtree : forall (A : Type) D (t : tree A), full D t -> forall w s, subtree t w = Some s -> full D s.
Proof.
  intros A D t Ht. induction w as [|i w IH]; intros s H; simpl in H.
  - inversion H; subst; assumption.
  - destruct (subtree t w) as [[a|childs]|] eqn:E; try discriminate.
    specialize (IH _ eq_refl). inversion IH as [|? Hl Hc]; subst.
    rewrite Forall_forall in Hc. apply Hc. eapply nth_error_In; eassumption.
Qed.

Lemma full_indices : forall (A : Type) D (t : tree A), full D t -> forall w s, subtree t w = Some s -> Forall (fun i => i < 2 ^ D) w.
Proof.
  intros A D t Ht. induction w as [|i w IH]; intros s H; [constructor|]. simpl in H.
  destruct (subtree t w) as [[a|childs]|] eqn:E; try discriminate.
  constructor; [|eapply IH; reflexivity].
  pose proof (full_subtree _ _ _ Ht _ _ E) as Hf. inversion Hf as [|? Hl Hc]; subst.
  rewrite <- Hl. apply nth_error_Some. congruence.
Qed.

Lemma NoDup_concat_rev_mapi : forall (A B : Type) (f : nat -> A -> list B) l k,
  (forall i a, nth_error l i = Some a -> NoDup (f (k + i) a)) ->
  (forall i j a b x, nth_error l i = Some a -> nth_error l j = Some b -> In x (f (k + i) a) -> In x (f (k + j) b) -> i = j) ->
  NoDup (concat (rev (mapi f k l))).
Proof.
  intros A B f. induction l as [|a l IH]; intros k H1 H2; simpl; [constructor|].
  rewrite concat_app. simpl. rewrite app_nil_r.
  assert (N1 : NoDup (concat (rev (mapi f (S k) l)))).
  { apply IH.
    - intros i b E. replace (S k + i) with (k + S i) by lia. apply H1. exact E.
    - intros i j b c x E1 E2 I1 I2. replace (S k + i) with (k + S i) in I1 by lia. replace (S k + j) with (k + S j) in I2 by lia.
      assert (S i = S j) by (eapply (H2 (S i) (S j)); eassumption). lia. }
  assert (N2 : NoDup (f k a)) by (specialize (H1 0 a eq_refl); rewrite Nat.add_0_r in H1; exact H1).
  apply NoDup_app_disj; auto. intros x I1 I2.
  apply in_concat in I1. destruct I1 as (l0 & Hl0 & I1). apply in_rev in Hl0. apply in_mapi in Hl0.
  destruct Hl0 as (i & b & E & ->). replace (S k + i) with (k + S i) in I1 by lia.
  assert (S i = 0); [|lia]. apply (H2 (S i) 0 b a x); auto. rewrite Nat.add_0_r. exact I2.
Qed.

(** * Coordinates of the sub-cells *)

Definition bit (D a i : nat) : Z := nth a (coordinates_of D i) 0%Z.
Definition flip (D axis i : nat) : nat :=
  match axis with 0 => if Z.eqb (bit D 0 i) 0 then i + 1 else i - 1
                | 1 => if Z.eqb (bit D 1 i) 0 then i + 2 else i - 2
                | _ => if Z.eqb (bit D 2 i) 0 then i + 4 else i - 4 end.

Lemma below8 : forall i, i < 8 -> i = 0 \/ i = 1 \/ i = 2 \/ i = 3 \/ i = 4 \/ i = 5 \/ i = 6 \/ i = 7.
Proof. lia. Qed.
Lemma below4 : forall i, i < 4 -> i = 0 \/ i = 1 \/ i = 2 \/ i = 3.
Proof. lia. Qed.
Lemma below3 : forall i, i < 3 -> i = 0 \/ i = 1 \/ i = 2.
Proof. lia. Qed.
Lemma below2 : forall i, i < 2 -> i = 0 \/ i = 1.
Proof. lia. Qed.

Lemma pow_split : forall k l, k <= l -> (2 ^ Z.of_nat l = 2 ^ Z.of_nat k * 2 ^ Z.of_nat (l - k))%Z.
Proof. intros. rewrite <- Z.pow_add_r by lia. f_equal. lia. Qed.

Section Bits.
Variable D : nat.
Hypothesis HD : D = 2 \/ D = 3.

Ltac split_or H := repeat (destruct H as [H|H]); subst.

Lemma bit_range : forall a i, a < D -> i < 2 ^ D -> bit D a i = 0%Z \/ bit D a i = 1%Z.
Proof.
  intros a i Ha Hi. destruct HD as [->| ->]; simpl in Hi.
  - apply below2 in Ha. apply below4 in Hi. split_or Ha; split_or Hi; cbv; auto.
  - apply below3 in Ha. apply below8 in Hi. split_or Ha; split_or Hi; cbv; auto.
Qed.

Lemma flip_spec : forall a i, a < D -> i < 2 ^ D ->
  flip D a i < 2 ^ D /\ bit D a (flip D a i) = (1 - bit D a i)%Z /\
  (forall b, b < D -> b <> a -> bit D b (flip D a i) = bit D b i).
Proof.
  intros a i Ha Hi. destruct HD as [->| ->]; simpl in Hi |- *.
  - apply below2 in Ha. apply below4 in Hi. split_or Ha; split_or Hi; cbv [flip bit]; simpl; repeat split; try lia;
      intros b Hb Hn; apply below2 in Hb; split_or Hb; try congruence; reflexivity.
  - apply below3 in Ha. apply below8 in Hi. split_or Ha; split_or Hi; cbv [flip bit]; simpl; repeat split; try lia;
      intros b Hb Hn; apply below3 in Hb; split_or Hb; try congruence; reflexivity.
Qed.

Lemma bits_inj : forall i j, i < 2 ^ D -> j < 2 ^ D -> (forall a, a < D -> bit D a i = bit D a j) -> i = j.
Proof.
  intros i j Hi Hj H. destruct HD as [->| ->]; simpl in Hi, Hj.
  - pose proof (H 0 ltac:(lia)) as H0. pose proof (H 1 ltac:(lia)) as H1. clear H.
    apply below4 in Hi. apply below4 in Hj. split_or Hi; split_or Hj; try reflexivity; cbv in H0, H1; discriminate.
  - pose proof (H 0 ltac:(lia)) as H0. pose proof (H 1 ltac:(lia)) as H1. pose proof (H 2 ltac:(lia)) as H2. clear H.
    apply below8 in Hi. apply below8 in Hj. split_or Hi; split_or Hj; try reflexivity; cbv in H0, H1, H2; discriminate.
Qed.

Lemma opposite_flip : forall a i dir, a < D -> i < 2 ^ D -> (dir = 1 \/ dir = -1)%Z ->
  opposite D a dir (coordinates_of D i) = Z.of_nat (flip D a i).
Proof.
  intros a i dir Ha Hi Hd. destruct HD as [->| ->]; simpl in Hi.
  - apply below2 in Ha. apply below4 in Hi. destruct Hd as [->| ->]; split_or Ha; split_or Hi; reflexivity.
  - apply below3 in Ha. apply below8 in Hi. destruct Hd as [->| ->]; split_or Ha; split_or Hi; reflexivity.
Qed.

Lemma interval_bit : forall a i dir, a < D -> i < 2 ^ D -> (dir = 1 \/ dir = -1)%Z ->
  in_closed_interval 0 (nth a (coordinates_of D i) 0%Z + dir) 1 = true <-> dir = (1 - 2 * bit D a i)%Z.
Proof.
  intros a i dir Ha Hi Hd. fold (bit D a i). unfold in_closed_interval.
  destruct (bit_range a i Ha Hi) as [-> | ->]; destruct Hd as [-> | ->]; simpl; lia.
Qed.

(** * Integer position of a sub-cell along an axis *)

Fixpoint pos (a : nat) (c : Z) (p : list nat) : Z :=
  match p with [] => c | i :: up => 2 * pos a c up + bit D a i end.

Lemma pos_app : forall a c w u, pos a c (w ++ u) = pos a (pos a c u) w.
Proof. induction w; intros; simpl; [reflexivity|rewrite IHw; reflexivity]. Qed.

Definition good (p : list nat) : Prop := Forall (fun i => i < 2 ^ D) p.

Lemma pos_bounds : forall a c w, a < D -> good w ->
  (c * 2 ^ Z.of_nat (length w) <= pos a c w < (c + 1) * 2 ^ Z.of_nat (length w))%Z.
Proof.
  intros a c w Ha. induction w as [|i w IH]; intros Hg; simpl pos; simpl length.
  - simpl. lia.
  - inversion Hg; subst. specialize (IH H2). rewrite Nat2Z.inj_succ, Z.pow_succ_r by lia.
    destruct (bit_range a i Ha H1) as [-> | ->]; nia.
Qed.

Lemma pos_div : forall a c w, a < D -> good w -> (pos a c w / 2 ^ Z.of_nat (length w) = c)%Z.
Proof.
  intros a c w Ha Hg. pose proof (pos_bounds a c w Ha Hg) as B.
  assert (0 < 2 ^ Z.of_nat (length w))%Z by (apply Z.pow_pos_nonneg; lia).
  symmetry. apply Z.div_unique with (pos a c w - c * 2 ^ Z.of_nat (length w))%Z; [left; lia|ring].
Qed.

Lemma pos_inj : forall u v (c c' : nat -> Z), good u -> good v -> length u = length v ->
  (forall a, a < D -> pos a (c a) u = pos a (c' a) v) -> u = v /\ (forall a, a < D -> c a = c' a).
Proof.
  induction u as [|i u IH]; intros v c c' Hu Hv Hl H; destruct v as [|j v]; try discriminate.
  - split; [reflexivity|]. exact H.
  - inversion Hu; inversion Hv; subst. simpl in Hl, H.
    assert (B : forall a, a < D -> bit D a i = bit D a j /\ pos a (c a) u = pos a (c' a) v).
    { intros a Ha. specialize (H a Ha). destruct (bit_range a i Ha H2); destruct (bit_range a j Ha H6); lia. }
    destruct (IH v c c') as [-> E]; auto; [intros; apply B; assumption|].
    split; [|exact E]. f_equal. apply bits_inj; auto. intros; apply B; assumption.
Qed.

(** all the bits of [w] along the axis are 0 / 1 *)
Lemma pos_zeros : forall a c w, a < D -> good w ->
  (pos a c w = c * 2 ^ Z.of_nat (length w))%Z <-> Forall (fun i => bit D a i = 0%Z) w.
Proof.
  intros a c w Ha. induction w as [|i w IH]; intros Hg.
  - simpl. split; [constructor|lia].
  - inversion Hg; subst. specialize (IH H2). pose proof (pos_bounds a c w Ha H2) as B.
    simpl pos; simpl length. rewrite Nat2Z.inj_succ, Z.pow_succ_r by lia. split.
    + intros E. destruct (bit_range a i Ha H1) as [E1 | E1]; rewrite E1 in E; [|nia].
      constructor; [exact E1|]. apply IH. lia.
    + intros F. inversion F; subst. rewrite H3. apply IH in H4. lia.
Qed.
Lemma pos_ones : forall a c w, a < D -> good w ->
  (pos a c w + 1 = (c + 1) * 2 ^ Z.of_nat (length w))%Z <-> Forall (fun i => bit D a i = 1%Z) w.
Proof.
  intros a c w Ha. induction w as [|i w IH]; intros Hg.
  - simpl. split; [constructor|lia].
  - inversion Hg; subst. specialize (IH H2). pose proof (pos_bounds a c w Ha H2) as B.
    simpl pos; simpl length. rewrite Nat2Z.inj_succ, Z.pow_succ_r by lia. split.
    + intros E. destruct (bit_range a i Ha H1) as [E1 | E1]; rewrite E1 in E; [nia|].
      constructor; [exact E1|]. apply IH. lia.
    + intros F. inversion F; subst. rewrite H3. apply IH in H4. lia.
Qed.

(** Overlap of the dyadic intervals [P/2^k, (P+1)/2^k) and [Q/2^l, (Q+1)/2^l). *)
Definition overlap (P : Z) (k : nat) (Q : Z) (l : nat) : Prop :=
  (P * 2 ^ Z.of_nat l < (Q + 1) * 2 ^ Z.of_nat k /\ Q * 2 ^ Z.of_nat k < (P + 1) * 2 ^ Z.of_nat l)%Z.

Lemma overlap_div : forall P k Q l, k <= l -> overlap P k Q l -> (P = Q / 2 ^ Z.of_nat (l - k))%Z.
Proof.
  intros P k Q l Hk [H1 H2]. rewrite (pow_split k l Hk) in H1, H2.
  assert (0 < 2 ^ Z.of_nat k)%Z by (apply Z.pow_pos_nonneg; lia).
  assert (0 < 2 ^ Z.of_nat (l - k))%Z by (apply Z.pow_pos_nonneg; lia).
  apply Z.div_unique with (Q - P * 2 ^ Z.of_nat (l - k))%Z; [left|ring]. split; nia.
Qed.

Lemma overlap_sym : forall P k Q l, overlap P k Q l -> overlap Q l P k.
Proof. intros P k Q l [H1 H2]. split; assumption. Qed.

(** Overlapping sub-cells are nested. *)
Lemma nested : forall u v (c c' : nat -> Z), good u -> good v -> length u <= length v ->
  (forall a, a < D -> overlap (pos a (c a) u) (length u) (pos a (c' a) v) (length v)) ->
  (exists w, v = w ++ u) /\ (forall a, a < D -> c a = c' a).
Proof.
  intros u v c c' Hu Hv Hl H.
  set (m := length v - length u).
  assert (Ev : v = firstn m v ++ skipn m v) by (symmetry; apply firstn_skipn).
  assert (Lw : length (firstn m v) = m) by (apply firstn_length_le; unfold m; lia).
  assert (Ls : length (skipn m v) = length u) by (rewrite skipn_length; unfold m; lia).
  assert (Gw : good (firstn m v)) by (unfold good in *; rewrite Ev in Hv; apply Forall_app in Hv; apply Hv).
  assert (Gs : good (skipn m v)) by (unfold good in *; rewrite Ev in Hv; apply Forall_app in Hv; apply Hv).
  destruct (pos_inj u (skipn m v) c c' Hu Gs) as [E1 E2]; [congruence| |].
  - intros a Ha. apply H in Ha as O. apply overlap_div in O; [|assumption]. fold m in O.
    rewrite O. rewrite Ev at 1. rewrite pos_app.
    pose proof (pos_div a (pos a (c' a) (skipn m v)) (firstn m v) Ha Gw) as Q. rewrite Lw in Q. exact Q.
  - split; [|exact E2]. exists (firstn m v). rewrite E1 at 1. exact Ev.
Qed.

Lemma nested_overlap : forall a c w u, a < D -> good w -> overlap (pos a c u) (length u) (pos a c (w ++ u)) (length (w ++ u)).
Proof.
  intros a c w u Ha Hw. rewrite pos_app, app_length. pose proof (pos_bounds a (pos a c u) w Ha Hw) as B.
  unfold overlap. rewrite Nat2Z.inj_add, Z.pow_add_r by lia.
  assert (0 < 2 ^ Z.of_nat (length u))%Z by (apply Z.pow_pos_nonneg; lia). split; nia.
Qed.

(** * Going up and down *)

Variable axis : nat.
Hypothesis Haxis : axis < D.
Variable dir : Z.
Hypothesis Hdir : (dir = 1 \/ dir = -1)%Z.

Lemma go_up_spec : forall p path0, good p ->
  let '(up, path) := go_up D axis dir p path0 in
  exists w u, p = w ++ u /\ path = map (coordinates_of D) (rev w) ++ path0 /\
    match up with
    | Some up => u = up /\ exists w' i, w = w' ++ [i] /\ dir = (1 - 2 * bit D axis i)%Z /\
                   Forall (fun j => dir = (2 * bit D axis j - 1)%Z) w'
    | None => u = [] /\ Forall (fun j => dir = (2 * bit D axis j - 1)%Z) w
    end.
Proof.
  induction p as [|i p IH]; intros path0 Hg; simpl.
  - exists [], []. auto.
  - inversion Hg; subst.
    destruct (in_closed_interval 0 (nth axis (coordinates_of D i) 0%Z + dir) 1) eqn:E.
    + exists [i], p. split; [reflexivity|]. split; [reflexivity|]. split; [reflexivity|].
      exists [], i. split; [reflexivity|]. split; [|constructor]. apply interval_bit in E; assumption.
    + assert (B : dir = (2 * bit D axis i - 1)%Z).
      { destruct (bit_range axis i Haxis H1) as [B|B]; rewrite B; destruct Hdir as [Hd|Hd]; rewrite Hd; try reflexivity; exfalso;
          assert (in_closed_interval 0 (nth axis (coordinates_of D i) 0%Z + dir) 1 = true)
            by (apply interval_bit; [assumption|assumption|assumption|rewrite B, Hd; reflexivity]); congruence. }
      specialize (IH (coordinates_of D i :: path0) H2).
      destruct (go_up D axis dir p (coordinates_of D i :: path0)) as [up path].
      destruct IH as (w & u & -> & -> & IH). exists (i :: w), u. split; [reflexivity|]. split.
      * simpl. rewrite map_app, <- app_assoc. reflexivity.
      * destruct up as [up|].
        -- destruct IH as (-> & w' & j & -> & Hj & Hw). split; [reflexivity|]. exists (i :: w'), j.
           split; [reflexivity|]. split; [exact Hj|]. constructor; assumption.
        -- destruct IH as (-> & Hw). split; [reflexivity|]. constructor; assumption.
Qed.

Lemma good_flip : forall w, good w -> good (map (flip D axis) w).
Proof.
  intros w H. unfold good. apply Forall_map. eapply Forall_impl; [|exact H].
  intros i Hi. apply flip_spec; assumption.
Qed.

Lemma pos_flip_other : forall a c w, a < D -> a <> axis -> good w -> pos a c (map (flip D axis) w) = pos a c w.
Proof.
  intros a c w Ha Hn. induction w as [|i w IH]; intros Hg; [reflexivity|]. inversion Hg; subst. simpl.
  rewrite IH by assumption. destruct (flip_spec axis i Haxis H1) as (_ & _ & F). rewrite F; auto.
Qed.

Lemma pos_carry : forall c w, good w -> Forall (fun j => dir = (2 * bit D axis j - 1)%Z) w ->
  (pos axis (c + dir) (map (flip D axis) w) = pos axis c w + dir)%Z.
Proof.
  intros c w Hg. induction w as [|i w IH]; intros H; [reflexivity|]. inversion Hg; inversion H; subst. simpl.
  rewrite IH by assumption. destruct (flip_spec axis i Haxis H2) as (_ & F & _). rewrite F. lia.
Qed.

(** Going down: [idx] are the indices met, from the root. *)
Lemma go_down_spec : forall (A : Type) idx p (t : tree A), good idx -> full D t ->
  exists w s, go_down D axis dir (map (coordinates_of D) idx) p t = Some (w ++ p, s) /\
    subtree t w = Some s /\
    ((w = rev (map (flip D axis) idx)) \/
     (is_leaf s = true /\ exists w', rev (map (flip D axis) idx) = w' ++ w)).
Proof.
  intros A. induction idx as [|i idx IH]; intros p t Hg Ht.
  - exists [], t. simpl. auto.
  - inversion Hg; subst. destruct t as [a|childs].
    + exists [], (Leaf a). simpl. split; [reflexivity|]. split; [reflexivity|]. right. split; [reflexivity|].
      eexists. rewrite app_nil_r. reflexivity.
    + inversion Ht as [|? Hl Hc]; subst. simpl.
      rewrite (opposite_flip axis i dir Haxis H1 Hdir), Nat2Z.id.
      destruct (flip_spec axis i Haxis H1) as (Fb & _ & _).
      destruct (nth_error childs (flip D axis i)) as [c|] eqn:E.
      2:{ apply nth_error_None in E. lia. }
      assert (Hfc : full D c) by (rewrite Forall_forall in Hc; apply Hc; eapply nth_error_In; eassumption).
      destruct (IH (flip D axis i :: p) c H2 Hfc) as (w & s & E1 & E2 & E3).
      exists (w ++ [flip D axis i]), s. rewrite <- app_assoc. simpl. split; [exact E1|]. split.
      * rewrite subtree_last, E. exact E2.
      * destruct E3 as [-> | (L & w' & ->)]; [left; reflexivity|right]. split; [exact L|].
        exists w'. rewrite app_assoc. reflexivity.
Qed.

Lemma in_facing : forall (A : Type) s (t : tree A) p v,
  In v (facing D axis s p t) <->
  exists w a, v = w ++ p /\ subtree t w = Some (Leaf a) /\ Forall (fun i => bit D axis i = s) w.
Proof.
  intros A s t. induction t as [a|childs IH] using tree_ind'; intros p v; simpl.
  - split.
    + intros [<-|[]]. exists [], a. repeat split; constructor.
    + intros (w & b & -> & H & _). apply subtree_leaf in H as [-> _]. left. reflexivity.
  - rewrite in_concat. split.
    + intros (l & Hl & Hv). apply in_rev in Hl. apply in_mapi in Hl. destruct Hl as (i & c & E & ->). simpl in Hv.
      fold (bit D axis i) in Hv. destruct (Z.eqb_spec (bit D axis i) s) as [B|]; [|destruct Hv].
      rewrite Forall_forall in IH. apply IH in Hv; [|eapply nth_error_In; eassumption].
      destruct Hv as (w & a & -> & Hw & Hb). exists (w ++ [i]), a. split; [rewrite <- app_assoc; reflexivity|].
      split; [rewrite subtree_last, E; exact Hw|]. apply Forall_app. split; [exact Hb|]. constructor; [exact B|constructor].
    + intros (w & a & -> & Hw & Hb). destruct w as [|i w] using rev_ind; [discriminate|]. clear IHw.
      rewrite subtree_last in Hw. apply Forall_app in Hb as [Hb Hi]. inversion Hi; subst.
      destruct (nth_error childs i) as [c|] eqn:E; [|discriminate].
      exists (facing D axis (bit D axis i) (i :: p) c). split.
      * apply -> in_rev. apply in_mapi. exists i, c. split; [exact E|]. simpl. fold (bit D axis i). rewrite Z.eqb_refl. reflexivity.
      * rewrite Forall_forall in IH. apply IH; [eapply nth_error_In; eassumption|].
        exists w, a. rewrite <- app_assoc. auto.
Qed.

Lemma facing_path : forall (A : Type) s (t : tree A) p v, In v (facing D axis s p t) -> exists w, v = w ++ p.
Proof. intros A s t p v H. apply in_facing in H. destruct H as (w & _ & -> & _). exists w. reflexivity. Qed.

End Bits.
