(** Proofs about the linear system of a scene, continued: the product of two motions through the assembled table, legality of
    the calls, blocks and fixed unknowns. *)

From Coq Require Import Reals Lra Lia List Arith Bool.
From Verif Require Import GridGeoModel ShapeModel Sums SparseModel SparseProofs EigenMatrixModel EigenMatrixSpec EigenMatrixProofs EigenMatrixProofs2 EigenMatrixProofs3.
From Verif Require Import SceneModel SceneSpec SceneProofs.
Import ListNotations.
Open Scope R_scope.

(** ** Product of two motions *)
Section Product.
Variables (sc : scene) (w z : nat -> nat -> R).
Hypothesis W : well_formed sc.
Hypothesis Aw : admissible sc w.
Hypothesis Az : admissible sc z.
Let n := dimension sc.
Let a := fun p => nth p (gather sc w) 0.
Let b := fun p => nth p (gather sc z) 0.
Definition energy (f : nat * list (nat * nat * R)) : R := Rsum (map (fun e => w (fst f) (fst (fst e)) * snd e * z (fst f) (snd (fst e))) (snd f)).

Lemma product_args m A u u' v v' : (forall i, (i < m)%nat -> u i = u' i) -> (forall i, (i < m)%nat -> v i = v' i) -> product m A u v = product m A u' v'.
Proof. intros U V. apply sum_ext. intros i I. apply sum_ext. intros j J. rewrite U, V by assumption. reflexivity. Qed.

Lemma product_global_forces fs : forall t, (forall s entries, In (s, entries) fs -> In (s, entries) (force_fields sc)) ->
  product n (extend t (flat_map (fun f => if (visited sc (fst f) && is_free sc (fst f))%bool then force_calls (offset sc (fst f)) (snd f) else []) fs)) a b =
  product n t a b + Rsum (map (fun f => if (visited sc (fst f) && is_free sc (fst f))%bool then energy f else 0) fs).
Proof.
  induction fs as [|[s entries] fs IH]; intros t H; [cbn; ring|]. cbn [flat_map map fst snd]. rewrite extend_app, IH by (intros; apply H; right; assumption).
  change (Rsum (?x :: ?l)) with (x + Rsum l). destruct (visited sc s && is_free sc s)%bool eqn:E; [|cbn [extend fold_left]; ring].
  apply andb_true_iff in E. destruct E as [V F]. pose proof (visited_range sc s V) as Ls.
  destruct (proj1 (proj2 W) s entries (H s entries (or_introl eq_refl))) as (_ & R).
  pose proof (offset_in sc s Ls F) as O. fold n in O. rewrite product_forces.
  - rewrite Rplus_assoc. f_equal. f_equal. unfold energy. cbn [fst snd]. apply Rsum_ext. intros [[i j] v] Hin. cbn [fst snd].
    destruct (R i j v Hin). unfold a, b. rewrite !gather_nth by assumption. reflexivity.
  - intros i j v Hin. destruct (R i j v Hin). lia.
Qed.
Lemma product_global_constraints cs : forall t, (forall s groups, In (s, groups) cs -> In (s, groups) (constraints sc)) ->
  product n (extend t (flat_map (fun c => if (visited sc (fst c) && is_free sc (fst c))%bool then constraint_calls (offset sc (fst c)) (snd c) else []) cs)) a b =
  product n t a b.
Proof.
  induction cs as [|[s groups] cs IH]; intros t H; [reflexivity|]. cbn [flat_map fst snd]. rewrite extend_app, IH by (intros; apply H; right; assumption).
  destruct (visited sc s && is_free sc s)%bool eqn:E; [|reflexivity].
  apply andb_true_iff in E. destruct E as [V F]. pose proof (visited_range sc s V) as Ls. pose proof (H s groups (or_introl eq_refl)) as C.
  destruct (proj2 (proj2 W) s groups C) as (_ & R). apply product_constraint. intros g d Hg Hd. pose proof (R g d Hg Hd) as D.
  unfold a, b. rewrite !gather_nth by assumption. pose proof (proj1 (visited_counted sc s W) V) as K.
  split; [apply (proj2 Aw)|apply (proj2 Az)]; try exact K; exists groups, g; auto.
Qed.
(** The matrix of one mapped state. *)
Lemma product_local s : visited sc s = true ->
  product (size sc s) (mapped_table sc s) (w s) (z s) = Rsum (map (fun f => if (fst f =? s)%nat then energy f else 0) (force_fields sc)).
Proof.
  intros V. unfold mapped_table, table_of. fold (extend all_zero). change (fold_left (fun t c => meaning c t) ?l all_zero) with (extend all_zero l). rewrite extend_app.
  assert (C : forall cs t, (forall s groups, In (s, groups) cs -> In (s, groups) (constraints sc)) ->
    product (size sc s) (extend t (flat_map (fun c => if (fst c =? s)%nat then constraint_calls 0 (snd c) else []) cs)) (w s) (z s) = product (size sc s) t (w s) (z s)).
  { induction cs as [|[s' groups] cs IH]; intros t H; [reflexivity|]. cbn [flat_map fst snd]. rewrite extend_app, IH by (intros; apply H; right; assumption).
    destruct (Nat.eqb_spec s' s) as [-> |]; [|reflexivity]. pose proof (H s groups (or_introl eq_refl)) as C. apply product_constraint. cbn [Nat.add]. intros g d Hg Hd.
    pose proof (proj1 (visited_counted sc s W) V) as K. split; [apply (proj2 Aw)|apply (proj2 Az)]; try exact K; exists groups, g; auto. }
  rewrite C by auto.
  assert (F : forall fs t, (forall s entries, In (s, entries) fs -> In (s, entries) (force_fields sc)) ->
    product (size sc s) (extend t (flat_map (fun f => if (fst f =? s)%nat then force_calls 0 (snd f) else []) fs)) (w s) (z s) =
    product (size sc s) t (w s) (z s) + Rsum (map (fun f => if (fst f =? s)%nat then energy f else 0) fs)).
  { induction fs as [|[s' entries] fs IH]; intros t H; [cbn; ring|]. cbn [flat_map map fst snd]. rewrite extend_app, IH by (intros; apply H; right; assumption).
    change (Rsum (?x :: ?l)) with (x + Rsum l). destruct (Nat.eqb_spec s' s) as [-> |]; [|cbn [extend fold_left]; ring].
    destruct (proj1 (proj2 W) s entries (H s entries (or_introl eq_refl))) as (_ & R). rewrite product_forces.
    - rewrite Rplus_assoc. reflexivity.
    - intros i j v Hin. cbn [Nat.add]. exact (R i j v Hin). }
  rewrite F by auto. rewrite product_zero. ring.
Qed.
Definition slave (s : nat) : bool := (visited sc s && negb (is_free sc s))%bool.
Lemma product_mapped k : (k <= length (states sc))%nat -> forall T t,
  product n (extend t (mapped_calls sc T (rev (seq 0 k)))) a b =
  product n t a b + sum k (fun s => if slave s then product (size sc s) (T s) (w s) (z s) else 0).
Proof.
  induction k as [|k IH]; intros K T t; [cbn; ring|].
  assert (Sum : forall f, sum (S k) f = sum k f + f k) by (intros f; unfold sum; rewrite seq_S, map_app, Rsum_app; cbn; ring).
  rewrite seq_S, rev_app_distr. cbn [Nat.add rev app mapped_calls]. rewrite Sum.
  assert (Sl : slave k = (visited sc k && match mapping (state_at sc k) with None => false | Some _ => true end)%bool)
    by (unfold slave, is_free; destruct (mapping (state_at sc k)); reflexivity).
  rewrite Sl. clear Sl. pose proof (visited_spec sc k W K) as Vk. destruct (mapping (state_at sc k)) as [[[p m] J]|] eqn:E.
  2: { rewrite andb_false_r, (IH ltac:(lia)). ring. }
  rewrite andb_true_r. destruct (visited sc k) eqn:V.
  2: { rewrite (IH ltac:(lia)). ring. }
  symmetry in Vk. apply andb_true_iff in Vk. destruct Vk as [-> Vp]. pose proof (proj1 W k p true J K E) as Lp. pose proof (proj1 (visited_counted sc k W) V) as Ck.
  assert (P : product (size sc p) (pulled (size sc k) J (T k)) (w p) (z p) = product (size sc k) (T k) (w k) (z k)).
  { rewrite product_pulled. apply product_args; intros i I; symmetry; [apply (proj1 Aw k p J i Ck E I)|apply (proj1 Az k p J i Ck E I)]. }
  destruct (is_free sc p) eqn:F.
  - cbn [extend fold_left]. change (fold_left (fun t c => meaning c t) ?l ?x) with (extend x l). rewrite (IH ltac:(lia)). rewrite product_block by (apply offset_in; [lia|exact F]).
    rewrite <- P. rewrite (product_args (size sc p) _ _ (w p) _ (z p)) by (intros i I; apply gather_nth; [lia|exact F|exact I]). ring.
  - rewrite (IH ltac:(lia)). f_equal. rewrite <- P. clear IH.
    transitivity (sum k (fun s => (if slave s then product (size sc s) (T s) (w s) (z s) else 0) +
       (if Nat.eqb p s then product (size sc s) (pulled (size sc k) J (T k)) (w s) (z s) else 0))).
    + apply sum_ext. intros s _. rewrite (Nat.eqb_sym s p). destruct (Nat.eqb_spec p s) as [<- |].
      * unfold slave. rewrite Vp, F. cbn [negb andb]. apply product_plus.
      * ring.
    + rewrite sum_plus. f_equal. apply (sum_delta k p (fun s => product (size sc s) (pulled (size sc k) J (T k)) (w s) (z s))). lia.
Qed.
Lemma product_assembled t (inside : nat -> bool) : (forall s, inside s = true <-> counted sc s) -> t = all_zero ->
  product n (extend t (global_force_calls sc ++ global_constraint_calls sc ++ mapped_calls sc (mapped_table sc) (rev (seq 0 (length (states sc)))))) a b = work sc inside w z.
Proof.
  intros I ->. assert (Iv : forall s, inside s = visited sc s).
  { intros s. apply eq_true_iff_eq. rewrite I. symmetry. apply visited_counted. exact W. }
  rewrite !extend_app, (product_mapped _ (le_n _)). unfold global_constraint_calls. rewrite product_global_constraints by auto.
  unfold global_force_calls. rewrite product_global_forces by auto. rewrite product_zero, Rplus_0_l.
  rewrite (sum_ext _ _ (fun s => Rsum (map (fun f => if slave s then (if (fst f =? s)%nat then energy f else 0) else 0) (force_fields sc)))).
  2: { intros s _. destruct (slave s) eqn:E; [|symmetry; apply Rsum_zero; reflexivity]. apply product_local. apply andb_true_iff in E. apply E. }
  unfold sum. rewrite Rsum_swap. rewrite <- Rsum_plus. unfold work. apply Rsum_ext. intros f Hf. fold (energy f). rewrite Iv.
  destruct f as [s0 entries]. destruct (proj1 (proj2 W) s0 entries Hf) as (Ls & _). cbn [fst].
  rewrite (Rsum_ext _ _ (fun s => if Nat.eqb s0 s then (if slave s then energy (s0, entries) else 0) else 0)) by (intros x _; destruct (slave x), (Nat.eqb s0 x); reflexivity).
  pose proof (sum_delta (length (states sc)) s0 (fun s => if slave s then energy (s0, entries) else 0) Ls) as D. unfold sum in D. rewrite D. unfold slave.
  destruct (visited sc s0), (is_free sc s0); cbn [andb negb]; ring.
Qed.
End Product.

(** ** Legality of the calls *)
Open Scope nat_scope.
Lemma legal_snoc rm s l c : legal rm s l -> in_range (size_of s l) c -> careful rm l c -> legal rm s (l ++ [c]).
Proof.
  intros L R C before c' after E. destruct (exists_last (l := c' :: after)) as (l' & x & E'); [discriminate|]. rewrite E' in E. rewrite app_assoc in E.
  apply app_inj_tail in E. destruct E as [E ->]. destruct after as [|y after].
  - destruct l' as [|? l']; [|apply (f_equal (@length call)) in E'; rewrite app_length in E'; cbn in E'; lia]. cbn in E'. injection E' as ->. rewrite app_nil_r in E. subst before. split; assumption.
  - destruct l' as [|q l']; [discriminate|]. cbn in E'. injection E' as <- E'. apply (L before c' l'). exact E.
Qed.
Lemma legal_steps rm s (I : list call -> Prop) calls :
  (forall l c, In c calls -> I l -> in_range (size_of s l) c /\ careful rm l c /\ I (l ++ [c])) ->
  forall l, legal rm s l -> I l -> legal rm s (l ++ calls) /\ I (l ++ calls).
Proof.
  intros H. induction calls as [|c calls IH]; intros l L Il; [rewrite app_nil_r; auto|]. destruct (H l c (or_introl eq_refl) Il) as (R & C & I').
  change (c :: calls) with ([c] ++ calls). rewrite app_assoc. apply IH; [intros; apply H; [right|]; assumption| |exact I']. apply legal_snoc; assumption.
Qed.
Lemma size_snoc s l c : size_of s (l ++ [c]) = new_size c (size_of s l).
Proof. unfold size_of. rewrite fold_left_app. reflexivity. Qed.
Lemma written_snoc l c : written (l ++ [c]) = new_written c (written l).
Proof. unfold written. rewrite fold_left_app. reflexivity. Qed.
Lemma table_snoc l c : table_of (l ++ [c]) = meaning c (table_of l).
Proof. unfold table_of. rewrite fold_left_app. reflexivity. Qed.
Lemma table_app l l' : table_of (l ++ l') = extend (table_of l) l'.
Proof. unfold table_of, extend. apply fold_left_app. Qed.
Lemma symmetric_snoc l c : declared_symmetric (l ++ [c]) = match c with SetSymmetric b => b | _ => declared_symmetric l end.
Proof. unfold declared_symmetric. rewrite fold_left_app. reflexivity. Qed.
Lemma zero_unwritten l : forall i j, table_of l i j <> 0%R -> written l i j = true.
Proof.
  induction l as [|c l IH] using rev_ind; intros x y; [intros H; exfalso; apply H; reflexivity|]. rewrite table_snoc, written_snoc. specialize (IH x y).
  destruct c; cbn [meaning new_written]; unfold zero_where; try (intros H; exfalso; apply H; reflexivity); try exact IH;
    try (match goal with |- context [is_at ?a ?b x y] => destruct (is_at a b x y) | |- context [in_block ?a ?b ?c ?d x y] => destruct (in_block a b c d x y) end;
         cbn [orb]; [reflexivity|exact IH]);
    match goal with |- context [if ?e then _ else _] => destruct e; [intros H; exfalso; apply H; reflexivity|exact IH] end.
Qed.
Lemma is_at_iff i j i' j' : is_at i j i' j' = true <-> i = i' /\ j = j'.
Proof. unfold is_at. rewrite andb_true_iff, !Nat.eqb_eq. reflexivity. Qed.
Definition is_add (c : call) : Prop := exists i j v, c = Add i j v.
Lemma written_adds calls : (forall c, In c calls -> is_add c) -> forall l i j,
  written (l ++ calls) i j = true <-> written l i j = true \/ exists v, In (Add i j v) calls.
Proof.
  induction calls as [|c calls IH]; intros H l i j.
  - rewrite app_nil_r. split; [auto|]. intros [A|(v & [])]. exact A.
  - change (c :: calls) with ([c] ++ calls). rewrite app_assoc, IH by (intros; apply H; right; assumption). destruct (H c (or_introl eq_refl)) as (i' & j' & v' & ->).
    rewrite written_snoc. cbn [new_written]. rewrite orb_true_iff, is_at_iff. split.
    + intros [[(-> & ->)|A]|(v & A)]; [right; exists v'; left; reflexivity|left; exact A|right; exists v; right; exact A].
    + intros [A|(v & [A|A])]; [left; right; exact A|injection A as -> -> _; left; left; split; reflexivity|right; exists v; exact A].
Qed.

Section Legal.
Variables (sc : scene) (sym rm : bool) (s0 : nat * nat) (h0 : list call).
Hypothesis W : well_formed sc.
Hypothesis An : anchored sc.
Hypothesis Sy : sym = true -> symmetric_entries sc.
Hypothesis L0 : legal rm s0 h0.
Let n := dimension sc.
Let start := h0 ++ [Resize n n; SetSymmetric sym].
Lemma in_global_forces c : In c (global_force_calls sc) <->
  exists s entries i j v, In (s, entries) (force_fields sc) /\ is_free sc s = true /\ In (i, j, v) entries /\ c = Add (offset sc s + i) (offset sc s + j) v.
Proof.
  unfold global_force_calls. rewrite in_flat_map. split.
  - intros ((s & entries) & Hf & Hc). cbn [fst snd] in Hc. destruct (visited sc s && is_free sc s)%bool eqn:E; [|destruct Hc]. apply andb_true_iff in E.
    unfold force_calls in Hc. apply in_map_iff in Hc. destruct Hc as ([[i j] v] & <- & Hin). exists s, entries, i, j, v. cbn [fst snd]. intuition.
  - intros (s & entries & i & j & v & Hf & F & Hin & ->). exists (s, entries). split; [exact Hf|]. cbn [fst snd]. rewrite F.
    destruct (proj1 (proj2 W) s entries Hf) as (Ls & _). rewrite (proj2 (visited_counted sc s W)) by (apply counted_free; [exact Ls|apply is_free_iff; exact F]).
    cbn [andb]. unfold force_calls. apply in_map_iff. exists (i, j, v). auto.
Qed.
Lemma in_global_constraints c : In c (global_constraint_calls sc) ->
  exists s d, s < length (states sc) /\ is_free sc s = true /\ is_fixed sc s d /\ d < size sc s /\ (c = ClearRowCol (offset sc s + d) \/ c = Set_ (offset sc s + d) (offset sc s + d) 1%R).
Proof.
  unfold global_constraint_calls. rewrite in_flat_map. intros ((s & groups) & Hf & Hc). cbn [fst snd] in Hc. destruct (visited sc s && is_free sc s)%bool eqn:E; [|destruct Hc].
  apply andb_true_iff in E. unfold constraint_calls in Hc. apply in_flat_map in Hc. destruct Hc as (g & Hg & Hc). destruct (proj2 (proj2 W) s groups Hf) as (Ls & R).
  apply in_app_iff in Hc. destruct Hc as [Hc|Hc]; apply in_map_iff in Hc; destruct Hc as (d & <- & Hd); exists s, d; (split; [exact Ls|]; split; [apply E|]; split; [exists groups, g; auto|]; split; [exact (R g d Hg Hd)|]); auto.
Qed.
Lemma in_mapped ids : (forall s, In s ids -> s < length (states sc)) -> forall T c, In c (mapped_calls sc T ids) ->
  exists p B, p < length (states sc) /\ is_free sc p = true /\ (exists s J, counted sc s /\ mapping (state_at sc s) = Some (p, true, J)) /\ c = AddBlock (offset sc p) (offset sc p) (size sc p) (size sc p) B.
Proof.
  induction ids as [|s ids IH]; intros H T c; cbn [mapped_calls]; [intros []|]. assert (H' : forall s, In s ids -> s < length (states sc)) by (intros; apply H; right; assumption).
  destruct (mapping (state_at sc s)) as [[[p m] J]|] eqn:E; [|apply IH; exact H']. destruct (visited sc s) eqn:V; [|apply IH; exact H'].
  destruct (is_free sc p) eqn:F; [|apply IH; exact H']. intros [<- |Hc]; [|apply (IH H' T c Hc)]. pose proof (H s (or_introl eq_refl)) as Ls.
  pose proof (visited_spec sc s W Ls) as Q. rewrite V, E in Q. symmetry in Q. apply andb_true_iff in Q. destruct Q as [-> Q].
  eexists p, _. split; [pose proof (proj1 W s p true J Ls E); lia|]. split; [exact F|]. split; [|reflexivity]. exists s, J. split; [apply visited_counted; assumption|exact E].
Qed.
Lemma written_start i j : written start i j = false.
Proof. unfold start. change [Resize n n; SetSymmetric sym] with ([Resize n n] ++ [SetSymmetric sym]). rewrite app_assoc, !written_snoc. reflexivity. Qed.
Lemma table_start : table_of start = all_zero.
Proof. unfold start. change [Resize n n; SetSymmetric sym] with ([Resize n n] ++ [SetSymmetric sym]). rewrite app_assoc, !table_snoc. reflexivity. Qed.
Lemma written_forces i j : written (start ++ global_force_calls sc) i j = true <->
  exists s a b, is_free sc s = true /\ touched sc s a b /\ i = offset sc s + a /\ j = offset sc s + b.
Proof.
  rewrite written_adds by (intros c Hc; apply in_global_forces in Hc; destruct Hc as (s & e & a & b & v & _ & _ & _ & ->); exists (offset sc s + a), (offset sc s + b), v; reflexivity).
  rewrite written_start. split.
  - intros [A|(v & Hc)]; [discriminate|]. apply in_global_forces in Hc. destruct Hc as (s & e & a & b & v' & Hf & F & Hin & E). injection E as -> -> ->.
    exists s, a, b. split; [exact F|]. split; [exists e, v'; auto|auto].
  - intros (s & a & b & F & (e & v & Hf & Hin) & -> & ->). right. exists v. apply in_global_forces. exists s, e, a, b, v. auto.
Qed.
Definition ready_for_constraints (l : list call) : Prop :=
  size_of s0 l = (n, n) /\ declared_symmetric l = sym /\ phase_of l <> Loose /\
  (forall i j, written (start ++ global_force_calls sc) i j = true -> written l i j = true) /\
  (sym = true -> forall i j, written l i j = true -> written l j i = true).
Lemma legal_forces : legal rm s0 (start ++ global_force_calls sc) /\ ready_for_constraints (start ++ global_force_calls sc).
Proof.
  set (I := fun l => size_of s0 l = (n, n) /\ declared_symmetric l = sym /\ phase_of l = Collecting).
  assert (L1 : legal rm s0 start /\ I start).
  { unfold start. change [Resize n n; SetSymmetric sym] with ([Resize n n] ++ [SetSymmetric sym]). rewrite app_assoc. split.
    - apply legal_snoc; [apply legal_snoc; [exact L0| |]| |]; exact Logic.I.
    - unfold I. rewrite !size_snoc, !symmetric_snoc, !phase_app. split; [reflexivity|split; reflexivity]. }
  destruct L1 as (L1 & I1).
  destruct (legal_steps rm s0 I (global_force_calls sc)) with (l := start) as (L2 & I2); [|exact L1|exact I1|].
  { intros l c Hc (A & B & C). apply in_global_forces in Hc. destruct Hc as (s & e & i & j & v & Hf & F & Hin & ->).
    destruct (proj1 (proj2 W) s e Hf) as (Ls & R). destruct (R i j v Hin). pose proof (offset_in sc s Ls F) as O. fold n in O.
    split; [rewrite A; cbn; lia|]. split; [exact Logic.I|]. unfold I. rewrite size_snoc, symmetric_snoc, phase_app, A, B, C. split; [reflexivity|split; reflexivity]. }
  split; [exact L2|]. destruct I2 as (A & B & C). split; [exact A|]. split; [exact B|]. split; [rewrite C; discriminate|]. split; [auto|].
  intros E i j H. apply written_forces in H. apply written_forces. destruct H as (s & a & b & F & T & -> & ->). exists s, b, a. split; [exact F|]. split; [apply (Sy E); assumption|auto].
Qed.
Lemma legal_constraints : legal rm s0 (start ++ global_force_calls sc ++ global_constraint_calls sc) /\
  size_of s0 (start ++ global_force_calls sc ++ global_constraint_calls sc) = (n, n).
Proof.
  destruct legal_forces as (L1 & I1). rewrite app_assoc. destruct (legal_steps rm s0 ready_for_constraints (global_constraint_calls sc)) with (l := start ++ global_force_calls sc) as (L2 & I2); [|exact L1|exact I1|].
  - intros l c Hc (A & B & C & D & E). apply in_global_constraints in Hc. destruct Hc as (s & d & Ls & F & X & Ld & Hc). pose proof (offset_in sc s Ls F) as O. fold n in O.
    destruct Hc as [-> | ->].
    + split; [rewrite A; cbn; lia|]. split.
      * cbn [careful]. split; [exact C|]. intros Hs i j Ht. apply E; [congruence|]. apply zero_unwritten. exact Ht.
      * unfold ready_for_constraints. rewrite size_snoc, symmetric_snoc, phase_app, written_snoc. cbn [new_size new_phase new_written]. split; [exact A|]. split; [exact B|]. split; [destruct (phase_of l); congruence|]. auto.
    + assert (K : written l (offset sc s + d) (offset sc s + d) = true).
      { apply D. apply written_forces. exists s, d, d. split; [exact F|]. split; [apply (An s d F X)|auto]. }
      split; [rewrite A; cbn; lia|]. split; [exact Logic.I|].
      unfold ready_for_constraints. rewrite size_snoc, symmetric_snoc, phase_app, written_snoc. cbn [new_size new_phase new_written]. rewrite K. cbn [after_write].
      split; [exact A|]. split; [exact B|]. split; [destruct (phase_of l); congruence|]. split.
      * intros i j H. rewrite (D i j H). apply orb_true_r.
      * intros Hs i j. rewrite !orb_true_iff, !is_at_iff. intros [(<- & <-)|H]; [left; auto|right; apply (E Hs); exact H].
  - split; [exact L2|apply I2].
Qed.
Lemma legal_assemble : legal rm s0 (h0 ++ assemble sc sym) /\ size_of s0 (h0 ++ assemble sc sym) = (n, n) /\ phase_of (h0 ++ assemble sc sym) = Settled /\
  table_of (h0 ++ assemble sc sym) = extend all_zero (global_force_calls sc ++ global_constraint_calls sc ++ mapped_calls sc (mapped_table sc) (rev (seq 0 (length (states sc))))).
Proof.
  set (M := mapped_calls sc (mapped_table sc) (rev (seq 0 (length (states sc))))).
  assert (E : h0 ++ assemble sc sym = ((start ++ global_force_calls sc ++ global_constraint_calls sc) ++ M) ++ [Compress]).
  { unfold assemble, start. fold M. fold n. rewrite <- !app_assoc. reflexivity. }
  destruct legal_constraints as (L1 & I1). destruct (legal_steps rm s0 (fun l => size_of s0 l = (n, n)) M) with (l := start ++ global_force_calls sc ++ global_constraint_calls sc) as (L2 & I2); [|exact L1|exact I1|].
  { intros l c Hc A. apply in_mapped in Hc; [|intros s Hs; apply in_rev, in_seq in Hs; lia]. destruct Hc as (p & B & Lp & F & _ & ->). pose proof (offset_in sc p Lp F) as O. fold n in O.
    split; [rewrite A; cbn; lia|]. split; [exact Logic.I|]. rewrite size_snoc. exact A. }
  rewrite E. split; [apply legal_snoc; [exact L2|exact Logic.I|exact Logic.I]|]. split; [rewrite size_snoc; exact I2|]. split; [rewrite phase_app; reflexivity|].
  rewrite table_snoc. cbn [meaning]. rewrite <- !app_assoc, table_app, table_start. reflexivity.
Qed.
End Legal.

(** ** Blocks and fixed unknowns *)
Definition final_table (sc : scene) : table := extend all_zero (global_force_calls sc ++ global_constraint_calls sc ++ mapped_calls sc (mapped_table sc) (rev (seq 0 (length (states sc))))).
Lemma extend_steps (I : table -> Prop) calls : (forall t c, In c calls -> I t -> I (meaning c t)) -> forall t, I t -> I (extend t calls).
Proof. intros H. induction calls as [|c calls IH]; intros t It; [exact It|]. cbn [extend fold_left]. apply IH; [intros; apply H; [right|]; assumption|]. apply H; [left; reflexivity|exact It]. Qed.
Lemma final_cross sc s t i j : well_formed sc -> s < length (states sc) -> t < length (states sc) -> is_free sc s = true -> is_free sc t = true ->
  i < size sc s -> j < size sc t -> s <> t -> final_table sc (offset sc s + i) (offset sc t + j) = 0%R.
Proof.
  intros W Ls Lt Fs Ft Li Lj N. unfold final_table. apply (extend_steps (fun T => T (offset sc s + i) (offset sc t + j) = 0%R)); [|reflexivity].
  intros T c Hc H. rewrite !in_app_iff in Hc. destruct Hc as [Hc|[Hc|Hc]].
  - apply (in_global_forces sc W) in Hc. destruct Hc as (u & e & k & l & v & Hf & Fu & Hin & ->). destruct (proj1 (proj2 W) u e Hf) as (Lu & R). destruct (R k l v Hin) as [Lk Ll].
    cbn [meaning]. destruct (is_at _ _ _ _) eqn:E; [|exact H]. apply is_at_iff in E. destruct E as [E1 E2].
    destruct (offset_inj sc u s k i Lu Ls Fu Fs Lk Li E1). destruct (offset_inj sc u t l j Lu Lt Fu Ft Ll Lj E2). congruence.
  - apply (in_global_constraints sc W) in Hc. destruct Hc as (u & d & Lu & Fu & _ & Ld & [-> | ->]); cbn [meaning]; unfold zero_where.
    + destruct (_ || _)%bool; [reflexivity|exact H].
    + destruct (is_at _ _ _ _) eqn:E; [|exact H]. apply is_at_iff in E. destruct E as [E1 E2].
      destruct (offset_inj sc u s d i Lu Ls Fu Fs Ld Li E1). destruct (offset_inj sc u t d j Lu Lt Fu Ft Ld Lj E2). congruence.
  - apply (in_mapped sc W) in Hc; [|intros x Hx; apply in_rev, in_seq in Hx; lia]. destruct Hc as (u & B & Lu & Fu & _ & ->). cbn [meaning]. destruct (in_block _ _ _ _ _ _) eqn:E; [|exact H].
    unfold in_block in E. rewrite !andb_true_iff, !Nat.leb_le, !Nat.ltb_lt in E.
    destruct (offset_inj sc u s (offset sc s + i - offset sc u) i Lu Ls Fu Fs); try lia. destruct (offset_inj sc u t (offset sc t + j - offset sc u) j Lu Lt Fu Ft); try lia.
Qed.
(** Row and column p are those of the identity. *)
Definition unit_at (p : nat) (t : table) : Prop := forall k, t p k = (if p =? k then 1 else 0)%R /\ t k p = (if p =? k then 1 else 0)%R.
Lemma unit_clear p d t : d <> p -> unit_at p t -> unit_at p (meaning (ClearRowCol d) t).
Proof.
  intros N U k. cbn [meaning]. unfold zero_where. destruct (U k) as [A B]. rewrite A, B. rewrite (proj2 (Nat.eqb_neq d p) N). cbn [orb]. rewrite orb_false_r.
  destruct (Nat.eqb_spec d k) as [<- |]; [|auto]. rewrite (proj2 (Nat.eqb_neq p d)) by congruence. auto.
Qed.
Lemma unit_set p d t : unit_at p t -> unit_at p (meaning (Set_ d d 1%R) t).
Proof.
  intros U k. cbn [meaning]. destruct (U k) as [A B]. split.
  - destruct (is_at d d p k) eqn:E; [|exact A]. apply is_at_iff in E. destruct E as [<- <-]. rewrite Nat.eqb_refl. reflexivity.
  - destruct (is_at d d k p) eqn:E; [|exact B]. apply is_at_iff in E. destruct E as [<- <-]. rewrite Nat.eqb_refl. reflexivity.
Qed.
(** Off the diagonal they are zero. *)
Definition alone_at (p : nat) (t : table) : Prop := forall k, k <> p -> t p k = 0%R /\ t k p = 0%R.
Lemma alone_clear p d t : alone_at p t -> alone_at p (meaning (ClearRowCol d) t).
Proof. intros U k N. cbn [meaning]. unfold zero_where. destruct (U k N) as [A B]. rewrite A, B. destruct (_ || _)%bool, (_ || _)%bool; auto. Qed.
Lemma alone_cleared p t : alone_at p (meaning (ClearRowCol p) t).
Proof. intros k N. cbn [meaning]. unfold zero_where. rewrite Nat.eqb_refl, orb_true_r. auto. Qed.
Lemma alone_set p d t : alone_at p t -> alone_at p (meaning (Set_ d d 1%R) t).
Proof.
  intros U k N. cbn [meaning]. destruct (U k N) as [A B]. split.
  - destruct (is_at d d p k) eqn:E; [|exact A]. apply is_at_iff in E. lia.
  - destruct (is_at d d k p) eqn:E; [|exact B]. apply is_at_iff in E. lia.
Qed.
Lemma alone_unit p t : alone_at p t -> t p p = 1%R -> unit_at p t.
Proof. intros U E k. destruct (Nat.eqb_spec p k) as [<- |N]; [auto|]. apply U. congruence. Qed.
Lemma group_alone o d g t : In d g -> alone_at (o + d) (extend t (map (fun d => ClearRowCol (o + d)) g)).
Proof.
  intros H. apply in_split in H. destruct H as (g1 & g2 & ->). rewrite map_app, extend_app. cbn [map extend fold_left]. change (fold_left (fun t c => meaning c t) ?l ?x) with (extend x l).
  apply (extend_steps (alone_at (o + d))); [|apply alone_cleared]. intros t' c Hc. apply in_map_iff in Hc. destruct Hc as (d' & <- & _). apply alone_clear.
Qed.
Lemma group_unit o d g t : In d g -> alone_at (o + d) t -> unit_at (o + d) (extend t (map (fun d => Set_ (o + d) (o + d) 1%R) g)).
Proof.
  intros H A. apply in_split in H. destruct H as (g1 & g2 & ->). rewrite map_app, extend_app. cbn [map extend fold_left]. change (fold_left (fun t c => meaning c t) ?l ?x) with (extend x l).
  apply (extend_steps (unit_at (o + d))).
  - intros t' c Hc. apply in_map_iff in Hc. destruct Hc as (d' & <- & _). apply unit_set.
  - apply alone_unit.
    + apply alone_set. apply (extend_steps (alone_at (o + d))); [|exact A]. intros t' c Hc. apply in_map_iff in Hc. destruct Hc as (d' & <- & _). apply alone_set.
    + cbn [meaning]. unfold is_at. rewrite Nat.eqb_refl. reflexivity.
Qed.
Lemma group_fixes o d g t : In d g -> unit_at (o + d) (extend t (map (fun d => ClearRowCol (o + d)) g ++ map (fun d => Set_ (o + d) (o + d) 1%R) g)).
Proof. intros H. rewrite extend_app. apply group_unit; [exact H|]. apply group_alone. exact H. Qed.
Lemma group_keeps p o g t : unit_at p t -> unit_at p (extend t (map (fun d => ClearRowCol (o + d)) g ++ map (fun d => Set_ (o + d) (o + d) 1%R) g)).
Proof.
  intros U. destruct (in_dec Nat.eq_dec p (map (fun d => o + d) g)) as [H|H].
  - apply in_map_iff in H. destruct H as (d & <- & Hd). apply group_fixes. exact Hd.
  - rewrite extend_app. apply (extend_steps (unit_at p)).
    + intros t' c Hc. apply in_map_iff in Hc. destruct Hc as (d' & <- & _). apply unit_set.
    + apply (extend_steps (unit_at p)); [|exact U]. intros t' c Hc. apply in_map_iff in Hc. destruct Hc as (d' & <- & Hd). apply unit_clear. intros <-. apply H. apply in_map_iff. eauto.
Qed.
Lemma constraint_keeps p o groups : forall t, unit_at p t -> unit_at p (extend t (constraint_calls o groups)).
Proof.
  induction groups as [|g groups IH]; intros t U; [exact U|]. unfold constraint_calls. cbn [flat_map]. rewrite extend_app. apply IH. apply group_keeps. exact U.
Qed.
Lemma constraint_fixes o d groups t g : In g groups -> In d g -> unit_at (o + d) (extend t (constraint_calls o groups)).
Proof.
  intros Hg Hd. apply in_split in Hg. destruct Hg as (l1 & l2 & ->). unfold constraint_calls. rewrite flat_map_app, extend_app. cbn [flat_map]. rewrite extend_app.
  apply constraint_keeps. apply group_fixes. exact Hd.
Qed.
Lemma global_keeps sc p cs : forall t, unit_at p t ->
  unit_at p (extend t (flat_map (fun c => if (visited sc (fst c) && is_free sc (fst c))%bool then constraint_calls (offset sc (fst c)) (snd c) else []) cs)).
Proof.
  induction cs as [|[s groups] cs IH]; intros t U; [exact U|]. cbn [flat_map fst snd]. rewrite extend_app. apply IH. destruct (_ && _)%bool; [apply constraint_keeps|]; exact U.
Qed.
Lemma global_fixes sc s d t : well_formed sc -> is_free sc s = true -> is_fixed sc s d -> unit_at (offset sc s + d) (extend t (global_constraint_calls sc)).
Proof.
  intros W F (groups & g & Hc & Hg & Hd). unfold global_constraint_calls. apply in_split in Hc as Hs. destruct Hs as (l1 & l2 & E). rewrite E.
  rewrite flat_map_app, extend_app. cbn [flat_map fst snd]. rewrite extend_app. apply global_keeps.
  destruct (proj2 (proj2 W) s groups Hc) as (Ls & _). rewrite F, (proj2 (visited_counted sc s W)) by (apply counted_free; [exact Ls|apply is_free_iff; exact F]).
  cbn [andb]. apply (constraint_fixes _ _ _ _ g Hg Hd).
Qed.
Lemma final_fixed sc s d : well_formed sc -> is_free sc s = true -> is_fixed sc s d -> d < size sc s ->
  (forall t J, counted sc t -> mapping (state_at sc t) <> Some (s, true, J)) -> unit_at (offset sc s + d) (final_table sc).
Proof.
  intros W F X Ld N. unfold final_table. rewrite !extend_app. apply (extend_steps (unit_at (offset sc s + d))); [|apply global_fixes; assumption].
  assert (Ls : s < length (states sc)) by (destruct X as (groups & g & Hc & _); apply (proj2 (proj2 W) s groups Hc)).
  intros t c Hc U. apply (in_mapped sc W) in Hc; [|intros x Hx; apply in_rev, in_seq in Hx; lia]. destruct Hc as (p & B & Lp & Fp & (q & J & Cq & Mq) & ->).
  assert (p <> s) by (intros ->; exact (N q J Cq Mq)).
  assert (O : ~ (offset sc p <= offset sc s + d < offset sc p + size sc p)).
  { intros O. destruct (offset_inj sc p s (offset sc s + d - offset sc p) d Lp Ls Fp F); lia. }
  intros k. destruct (U k) as [A1 A2]. cbn [meaning]. replace (in_block _ _ _ _ (offset sc s + d) k) with false.
  - replace (in_block _ _ _ _ k (offset sc s + d)) with false; [auto|]. symmetry. apply not_true_iff_false. unfold in_block. rewrite !andb_true_iff, !Nat.leb_le, !Nat.ltb_lt. lia.
  - symmetry. apply not_true_iff_false. unfold in_block. rewrite !andb_true_iff, !Nat.leb_le, !Nat.ltb_lt. lia.
Qed.
