(** C79: the parallel subdivision of the cells gives the expected trees under every schedule. *)

From Coq Require Import ZArith Reals Lia.
From Coq Require Import List Arith Bool.
From Verif Require Import GridModel GridSpec GridProofs GridGeoModel GridGeoSpec FictModel FictSpec FictProofs FictParModel.
Import ListNotations.
Open Scope nat_scope.

(** ** Specification vocabulary *)

(** The number of cells and sub-cells of a tree. *)
Fixpoint tree_size {A : Type} (t : tree A) : nat :=
  match t with Leaf _ => 1 | Node childs => S (list_sum (map tree_size childs)) end.
(** The tree in memory, once every cell has its data. *)
Fixpoint stored {A : Type} (t : tree A) : tree (option A) :=
  match t with Leaf a => Leaf (Some a) | Node childs => Node (map stored childs) end.

(** ** Writes *)

Lemma set_nth_length : forall A (l : list A) i f, length (set_nth i f l) = length l.
Proof. intros A. induction l as [|x l IH]; intros [|i] f; cbn; auto. Qed.
Lemma set_nth_nth : forall A (l : list A) i f k, nth_error (set_nth i f l) k = if Nat.eqb k i then option_map f (nth_error l k) else nth_error l k.
Proof.
  intros A. induction l as [|x l IH]; intros i f k; [destruct (Nat.eqb k i); destruct k, i; reflexivity|].
  destruct i as [|i], k as [|k]; cbn; try reflexivity. apply IH.
Qed.
Lemma set_nth_commute : forall A i j (f h : A -> A) l, i <> j -> set_nth i f (set_nth j h l) = set_nth j h (set_nth i f l).
Proof. intros A. induction i as [|i IH]; intros [|j] f h [|x l] H; cbn; try reflexivity; [congruence|]. f_equal. apply IH. congruence. Qed.
Lemma set_nth_compose : forall A i (f h : A -> A) l, set_nth i f (set_nth i h l) = set_nth i (fun x => f (h x)) l.
Proof. intros A. induction i as [|i IH]; intros f h [|x l]; cbn; try reflexivity. f_equal. apply IH. Qed.
Lemma set_nth_ext : forall A i (f h : A -> A) l, (forall x, f x = h x) -> set_nth i f l = set_nth i h l.
Proof. intros A. induction i as [|i IH]; intros f h [|x l] H; cbn; try reflexivity; [rewrite H; reflexivity|]. f_equal. apply IH, H. Qed.

(** Neither path leads to the other. *)
Fixpoint apart (p q : list nat) : Prop :=
  match p, q with i :: p, j :: q => i <> j \/ apart p q | _, _ => False end.
Lemma apart_sym : forall p q, apart p q -> apart q p.
Proof. induction p as [|i p IH]; intros [|j q]; cbn; auto. intros [H|H]; [left; congruence|right; apply IH, H]. Qed.
Lemma apart_below : forall p q r, apart p q -> apart (p ++ r) q.
Proof. induction p as [|i p IH]; intros [|j q] r; cbn; try tauto. intros [H|H]; [left; exact H|right; apply IH, H]. Qed.
Lemma apart_brothers : forall p i j, i <> j -> apart (p ++ [i]) (p ++ [j]).
Proof. induction p as [|k p IH]; intros i j H; cbn; [left; exact H|right; apply IH, H]. Qed.
Lemma store_commute : forall A p q (s r t : tree A), apart p q -> store p s (store q r t) = store q r (store p s t).
Proof.
  intros A. induction p as [|i p IH]; intros [|j q] s r t H; try destruct H; try contradiction; destruct t as [a|childs]; cbn; try reflexivity; f_equal.
  - apply set_nth_commute. assumption.
  - destruct (Nat.eq_dec i j) as [->|E]; [|apply set_nth_commute, E]. rewrite !set_nth_compose. apply set_nth_ext. intros x. apply IH. assumption.
Qed.
Lemma store_below : forall A p r (s u t : tree A), store (p ++ r) s (store p u t) = store p (store r s u) t.
Proof.
  intros A. induction p as [|i p IH]; intros r s u t; [reflexivity|]. destruct t as [a|childs]; [reflexivity|]. cbn. f_equal. rewrite set_nth_compose.
  apply set_nth_ext. intros x. apply IH.
Qed.

(** ** One iteration *)

Section One.
Variable D : nat.
Variable classify : box -> cell_type * bool.
Variable n : nat.
Hypothesis HD : D = 2 \/ D = 3.

Let expected (j : job) : tree (cell_type * R) := subdivide D classify (n - level j) (element j) (weight j).
(** What the cell will be, once all that is in the queue is done. *)
Definition completed (s : iteration) : memory := fold_left (fun t j => store (where_ j) (stored (expected j)) t) (queue s) (cell s).
Definition work (s : iteration) : nat := list_sum (map (fun j => tree_size (expected j)) (queue s)).
Definition separate (s : iteration) : Prop := ForallOrdPairs (fun j k => apart (where_ j) (where_ k)) (queue s).

Lemma folds_commute : forall (l : list job) p u t, (forall j, In j l -> apart p (where_ j)) ->
  fold_left (fun t j => store (where_ j) (stored (expected j)) t) l (store p u t) = store p u (fold_left (fun t j => store (where_ j) (stored (expected j)) t) l t).
Proof.
  induction l as [|j l IH]; intros p u t H; [reflexivity|]. cbn [fold_left]. rewrite <- store_commute by (apply H; left; reflexivity).
  apply IH. intros k Hk. apply H. right. exact Hk.
Qed.
Lemma subcells_number : forall e, length (get_subcells_elements D e) = 2 ^ D.
Proof. intros e. unfold get_subcells_elements. rewrite map_length. destruct HD as [-> | ->]; reflexivity. Qed.

Lemma store_childs : forall A (l done : list (tree A)) p (t : tree A) (z : tree A),
  fold_left (fun t i => store (p ++ [i]) (nth (i - length done) l z) t) (seq (length done) (length l)) (store p (Node (done ++ repeat z (length l))) t) =
  store p (Node (done ++ l)) t.
Proof.
  intros A. induction l as [|x l IH]; intros done p t z; [cbn; reflexivity|].
  cbn [length seq fold_left repeat]. rewrite store_below, Nat.sub_diag. cbn [nth store].
  assert (E : set_nth (length done) (fun _ => x) (done ++ z :: repeat z (length l)) = (done ++ [x]) ++ repeat z (length l)).
  { rewrite <- app_assoc. cbn. clear. induction done as [|y d IHd]; cbn; [reflexivity|]. f_equal. exact IHd. }
  assert (E' : set_nth (length done) (store [] x) (done ++ z :: repeat z (length l)) = (done ++ [x]) ++ repeat z (length l)) by exact E.
  change (fun _ : tree A => x) with (store (A := A) [] x) in *. rewrite E'.
  specialize (IH (done ++ [x]) p t z). assert (Ea : (done ++ [x]) ++ l = done ++ x :: l) by (rewrite <- app_assoc; reflexivity). rewrite Ea in IH. rewrite <- IH. rewrite app_length. cbn [length]. rewrite Nat.add_1_r.
  clear. assert (G : forall k m u, S (length done) <= k ->
     fold_left (fun t i => store (p ++ [i]) (nth (i - length done) (x :: l) z) t) (seq k m) u =
     fold_left (fun t i => store (p ++ [i]) (nth (i - S (length done)) l z) t) (seq k m) u).
  { intros k m. revert k. induction m as [|m IHm]; intros k u Hk; [reflexivity|]. cbn [seq fold_left].
    replace (nth (k - length done) (x :: l) z) with (nth (k - S (length done)) l z); [apply IHm; lia|].
    replace (k - length done) with (S (k - S (length done))) by lia. reflexivity. }
  apply G. lia.
Qed.

Lemma fold_map : forall (A B C : Type) (f : A -> B) (h : C -> B -> C) l c, fold_left h (map f l) c = fold_left (fun c a => h c (f a)) l c.
Proof. intros A B C f h. induction l as [|a l IH]; intros c; [reflexivity|]. cbn. apply IH. Qed.

(** The jobs made by the division of a sub-cell. *)
Let sons (e : box) (p : list nat) (w : R) (l : nat) : list job :=
  map (fun i => Job (nth i (get_subcells_elements D e) (Box [] [])) (p ++ [i]) (w / 2 ^ D)%R (l + 1)) (seq 0 (2 ^ D)).
Let subtrees (e : box) (w : R) (l : nat) : list (tree (cell_type * R)) :=
  map (fun e' => subdivide D classify (n - (l + 1)) e' (w / 2 ^ D)) (get_subcells_elements D e).
Lemma sons_expected : forall e p w l, map expected (sons e p w l) = subtrees e w l.
Proof.
  intros e p w l. unfold sons, subtrees. rewrite map_map. rewrite <- (subcells_number e). cbn [expected level element weight].
  generalize (get_subcells_elements D e). intros L. transitivity (map (fun e' => subdivide D classify (n - (l + 1)) e' (w / 2 ^ D)) (map (fun i => nth i L (Box [] [])) (seq 0 (length L)))).
  - rewrite map_map. reflexivity.
  - f_equal. clear. induction L as [|x L IH]; [reflexivity|]. cbn [length seq map nth]. f_equal. rewrite <- seq_shift, map_map. exact IH.
Qed.
Lemma sons_store : forall e p w l t,
  fold_left (fun t j => store (where_ j) (stored (expected j)) t) (sons e p w l) (store p (Node (repeat (Leaf None) (2 ^ D))) t) =
  store p (Node (map stored (subtrees e w l))) t.
Proof.
  intros e p w l t. pose proof (store_childs _ (map stored (subtrees e w l)) [] p t (Leaf None)) as S. cbn [app length] in S. rewrite map_length in S.
  assert (Ls : length (subtrees e w l) = 2 ^ D) by (unfold subtrees; rewrite map_length; apply subcells_number). rewrite Ls in S. rewrite <- S.
  unfold sons. rewrite fold_map. cbn [where_].
  assert (X : forall i, i < 2 ^ D -> stored (expected (Job (nth i (get_subcells_elements D e) (Box [] [])) (p ++ [i]) (w / 2 ^ D)%R (l + 1))) =
                        nth (i - 0) (map stored (subtrees e w l)) (Leaf None)).
  { intros i Hi. rewrite Nat.sub_0_r. unfold subtrees. rewrite map_map. cbn [expected level element weight].
    rewrite (nth_indep _ (Leaf None) (stored (subdivide D classify (n - (l + 1)) (Box [] []) (w / 2 ^ D)))) by (rewrite map_length, subcells_number; exact Hi).
    rewrite (map_nth (fun e' => stored (subdivide D classify (n - (l + 1)) e' (w / 2 ^ D)))). reflexivity. }
  assert (G : forall k m u, k + m <= 2 ^ D ->
     fold_left (fun c a => store (p ++ [a]) (stored (expected (Job (nth a (get_subcells_elements D e) (Box [] [])) (p ++ [a]) (w / 2 ^ D)%R (l + 1)))) c) (seq k m) u =
     fold_left (fun t i => store (p ++ [i]) (nth (i - 0) (map stored (subtrees e w l)) (Leaf None)) t) (seq k m) u).
  { intros k m. revert k. induction m as [|m IH]; intros k u Hk; [reflexivity|]. cbn [seq fold_left]. rewrite (X k) by lia. apply IH. lia. }
  apply G. lia.
Qed.

Lemma pairs_app : forall (A : Type) (Q : A -> A -> Prop) l r, ForallOrdPairs Q l -> ForallOrdPairs Q r -> (forall x y, In x l -> In y r -> Q x y) -> ForallOrdPairs Q (l ++ r).
Proof.
  intros A Q l r Hl Hr H. induction Hl as [|x l Hx Hl IH]; [exact Hr|]. cbn. constructor.
  - apply Forall_app. split; [exact Hx|]. apply Forall_forall. intros y Hy. apply H; [left; reflexivity|exact Hy].
  - apply IH. intros u v Hu Hv. apply H; [right; exact Hu|exact Hv].
Qed.

Lemma turn_ok : forall s, separate s -> separate (turn D classify n s) /\ completed (turn D classify n s) = completed s /\
  work s = (if queue s then 0 else 1) + work (turn D classify n s).
Proof.
  intros [t q] S. unfold turn, separate in *. cbn [queue cell] in *. destruct q as [|[e p w l] q]; [split; [exact S|split; reflexivity]|].
  inversion S as [|? ? S0 S1]; subst. clear S. rewrite Forall_forall in S0. cbn [where_] in S0.
  destruct (classify e) as [type sub] eqn:Ec.
  assert (Ex : expected (Job e p w l) = if (n <? l + 1) || negb sub then Leaf (type, w) else Node (subtrees e w l)).
  { unfold expected. cbn [level element weight]. destruct (Nat.ltb_spec n (l + 1)) as [H|H]; cbn [orb].
    - replace (n - l) with 0 by lia. cbn [subdivide]. rewrite Ec. reflexivity.
    - replace (n - l) with (Datatypes.S (n - (l + 1))) by lia. cbn [subdivide]. rewrite Ec. destruct sub; reflexivity. }
  unfold completed, work. cbn [queue cell fold_left map list_sum]. cbn [list_sum fold_right]. change (fold_right Nat.add 0) with list_sum.
  destruct ((n <? l + 1) || negb sub).
  - cbn [queue cell]. split; [exact S1|]. cbn [where_]. rewrite Ex. split; reflexivity.
  - cbn [queue cell where_]. rewrite Ex. fold (sons e p w l). split; [|split].
    + apply pairs_app; [exact S1| |].
      * unfold sons. generalize (seq_NoDup (2 ^ D) 0). generalize (seq 0 (2 ^ D)). induction l0 as [|i r IH]; intros ND; [constructor|]. inversion ND; subst. cbn [map]. constructor; [|apply IH; assumption].
        apply Forall_forall. intros k Hk. apply in_map_iff in Hk. destruct Hk as (j & <- & Hj). cbn [where_]. apply apart_brothers. intros ->. contradiction.
      * intros j k Hj Hk. unfold sons in Hk. apply in_map_iff in Hk. destruct Hk as (i & <- & _). cbn [where_]. apply apart_sym, apart_below, S0, Hj.
    + rewrite fold_left_app, (folds_commute q p) by exact S0. rewrite sons_store. cbn [stored]. symmetry. apply folds_commute. exact S0.
    + rewrite map_app, list_sum_app. cbn [tree_size]. rewrite <- (sons_expected e p w l), map_map. cbn [plus]. lia.
Qed.

Fixpoint turns (k : nat) (s : iteration) : iteration := match k with O => s | S k => turns k (turn D classify n s) end.
Lemma turns_snoc : forall k s, turns (S k) s = turn D classify n (turns k s).
Proof. induction k as [|k IH]; intros s; [reflexivity|]. cbn [turns] in *. apply IH. Qed.
Lemma size_positive : forall A (t : tree A), 1 <= tree_size t.
Proof. intros A [a|c]; cbn; lia. Qed.
Lemma work_zero : forall s, work s = 0 <-> queue s = [].
Proof.
  intros [t [|j q]]; unfold work; cbn [queue map list_sum]; [tauto|]. cbn [fold_right]. pose proof (size_positive _ (expected j)). split; [cbn; lia|discriminate].
Qed.
Lemma turns_ok : forall k s, separate s -> separate (turns k s) /\ completed (turns k s) = completed s /\ work (turns k s) = work s - k.
Proof.
  induction k as [|k IH]; intros s S; [cbn; split; [exact S|split; [reflexivity|lia]]|].
  cbn [turns]. destruct (turn_ok s S) as (S' & C & W). destruct (IH _ S') as (S2 & C2 & W2). split; [exact S2|]. split; [rewrite C2; exact C|].
  rewrite W2, W. destruct (queue s) eqn:Q; [|lia]. assert (work s = 0) by (apply work_zero, Q). lia.
Qed.
Lemma iteration_ok : forall k e,
  let t := subdivide D classify n e 1 in
  (queue (turns k (start e)) = [] <-> tree_size t <= k) /\ (queue (turns k (start e)) = [] -> cell (turns k (start e)) = stored t).
Proof.
  intros k e t. assert (S : separate (start e)) by (unfold separate, start; cbn [queue]; repeat constructor).
  destruct (turns_ok k _ S) as (_ & C & W).
  assert (W0 : work (start e) = tree_size t) by (unfold work, start, t, expected; cbn [queue map list_sum fold_right level element weight]; rewrite Nat.sub_0_r; lia).
  assert (C0 : completed (start e) = stored t) by (unfold completed, start, t, expected; cbn [queue cell fold_left where_ store level element weight]; rewrite Nat.sub_0_r; reflexivity).
  split.
  - rewrite <- work_zero, W, W0. lia.
  - intros Q. unfold completed in C at 1. rewrite Q in C. cbn [fold_left] in C. rewrite C. exact C0.
Qed.
End One.

(** ** Every schedule *)

Lemma schedule_local : forall g classify n schedule s c it, nth_error s c = Some it ->
  nth_error (fold_left (scheduled_turn g classify n) schedule s) c = Some (turns (length g) (classify c) n (count_occ Nat.eq_dec schedule c) it).
Proof.
  intros g classify n. induction schedule as [|d schedule IH]; intros s c it H; [exact H|]. cbn [fold_left count_occ].
  destruct (Nat.eq_dec d c) as [->|E].
  - cbn [turns]. apply IH. unfold scheduled_turn. rewrite set_nth_nth, Nat.eqb_refl, H. reflexivity.
  - apply IH. unfold scheduled_turn. rewrite set_nth_nth. destruct (Nat.eqb_spec c d) as [->|_]; [congruence|exact H].
Qed.

(** Whatever the interleaving of the iterations, the iteration of a cell is over exactly when it has done one turn per cell and sub-cell of the
    expected tree, and the cell is then this tree. *)
Theorem C79_any_schedule : forall g classify n schedule, valid_grid g -> (length g = 2 \/ length g = 3) ->
  forall c t, nth_error (subdivide_intersected_cells g classify n) c = Some t ->
  exists it, nth_error (run_schedule g classify n schedule) c = Some it /\
    (queue it = [] <-> tree_size t <= count_occ Nat.eq_dec schedule c) /\
    (queue it = [] -> cell it = stored t).
Proof.
  intros g classify n schedule Hg HD c t Ht.
  unfold subdivide_intersected_cells in Ht. cbv zeta in Ht. set (N := Z.to_nat (number_of_cells (subdivisions g))) in *.
  assert (Hc : c < N).
  { assert (L : nth_error (map (fun c => subdivide (length g) (classify c) n (cell_box g (cell_coordinates_of_index (subdivisions g) (Z.of_nat c))) 1) (seq 0 N)) c <> None) by congruence.
    apply nth_error_Some in L. rewrite map_length, seq_length in L. exact L. }
  rewrite (map_nth_error _ c _ (d := c)) in Ht by (rewrite (nth_error_nth' (seq 0 N) 0) by (rewrite seq_length; exact Hc); rewrite seq_nth by exact Hc; reflexivity).
  inversion Ht; subst t. clear Ht.
  assert (H0 : nth_error (all_started g) c = Some (start (cell_box g (cell_coordinates_of_index (subdivisions g) (Z.of_nat c))))).
  { unfold all_started. fold N. apply (map_nth_error (fun c => start (cell_box g (cell_coordinates_of_index (subdivisions g) (Z.of_nat c)))) c).
    rewrite (nth_error_nth' (seq 0 N) 0) by (rewrite seq_length; exact Hc). rewrite seq_nth by exact Hc. reflexivity. }
  eexists. split; [apply schedule_local, H0|]. apply iteration_ok. exact HD.
Qed.
Print Assumptions C79_any_schedule.

(** Every schedule that lets every iteration end gives the same memory: the stored trees of the sequential subdivision. *)
Theorem C79_schedule_independent : forall g classify n schedule, valid_grid g -> (length g = 2 \/ length g = 3) ->
  Forall (fun it => queue it = []) (run_schedule g classify n schedule) ->
  map cell (run_schedule g classify n schedule) = map stored (subdivide_intersected_cells g classify n).
Proof.
  intros g classify n schedule Hg HD HF.
  set (N := Z.to_nat (number_of_cells (subdivisions g))).
  assert (L : length (run_schedule g classify n schedule) = N).
  { unfold run_schedule. assert (G : forall l s, length (fold_left (scheduled_turn g classify n) l s) = length s).
    { induction l as [|c l IH]; intros s; [reflexivity|]. cbn [fold_left]. rewrite IH. apply set_nth_length. }
    rewrite G. unfold all_started. rewrite map_length, seq_length. reflexivity. }
  assert (L' : length (subdivide_intersected_cells g classify n) = N) by (unfold subdivide_intersected_cells; cbv zeta; rewrite map_length, seq_length; reflexivity).
  apply (nth_ext _ _ (Leaf None) (Leaf None)); [rewrite !map_length; congruence|]. rewrite map_length, L. intros c Hc.
  destruct (nth_error (subdivide_intersected_cells g classify n) c) as [t|] eqn:Et; [|apply nth_error_None in Et; lia].
  destruct (C79_any_schedule g classify n schedule Hg HD c t Et) as (it & E & _ & F).
  rewrite Forall_forall in HF. specialize (F (HF it (nth_error_In _ _ E))).
  rewrite (nth_error_nth _ _ (Leaf None) (map_nth_error cell c _ E)). rewrite (nth_error_nth _ _ (Leaf None) (map_nth_error stored c _ Et)). exact F.
Qed.
Print Assumptions C79_schedule_independent.

(** ** A case: one square, one level of subdivision.  Five turns end it, four do not. *)
Definition one_square : grid := [Axis 0 1 1; Axis 0 1 1].
Example C79_case : valid_grid one_square /\
  tree_size (Node (map (fun _ => Leaf (Boundary, 0%R)) (seq 0 4))) = 5 /\
  let classify := fun (_ : nat) (_ : box) => (Boundary, true) in
  map (fun it => length (queue it)) (run_schedule one_square classify 1 [0; 0; 0; 0]) = [1] /\
  map (fun it => length (queue it)) (run_schedule one_square classify 1 [0; 0; 0; 0; 0]) = [0].
Proof.
  split; [split; [cbn; lia|repeat constructor; cbn; Lra.lra]|]. split; [reflexivity|]. split; reflexivity.
Qed.
