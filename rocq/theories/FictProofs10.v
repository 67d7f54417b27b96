(** Tagging with a tessellated surface; creation of the grid. *)

From Coq Require Import ZArith Reals Lra Lia Permutation Relations.
From Coq Require Import List Arith Bool.
From Verif Require Import GridModel GridSpec GridProofs GridGeoModel GridGeoSpec GridGeoProofs ShapeModel Sums FictModel FictSpec FictProofs FictProofs2
  FictProofs3 FictProofs4 FictProofs5 FictProofs6 FictProofs8 FictProofs9 FictProperties FictProperties2 GridEnclosingProofs.
Import ListNotations.
Open Scope nat_scope.

Lemma nth_error_update_nth : forall (A : Type) (f : A -> A) i l k,
  nth_error (update_nth i f l) k = option_map (fun a => if Nat.eqb k i then f a else a) (nth_error l k).
Proof. intros A f i l k. unfold update_nth. rewrite nth_error_mapi. reflexivity. Qed.
Lemma update_nth_length : forall (A : Type) (f : A -> A) i l, length (update_nth i f l) = length l.
Proof. intros. unfold update_nth. apply length_mapi. Qed.

(** The cells of [touched] are marked with the triangle [i]. *)
Definition marks (n i : nat) (touched : nat -> Prop) (s s' : surface_state) : Prop :=
  length (cells_types s') = n /\ length (triangles_of_cell s') = n /\
  (forall c, c < n -> touched c -> nth_error (cells_types s') c = Some Boundary) /\
  (forall c, c < n -> ~ touched c -> nth_error (cells_types s') c = nth_error (cells_types s) c) /\
  (forall c k, c < n -> In k (nth c (triangles_of_cell s') []) <-> In k (nth c (triangles_of_cell s) []) \/ (k = i /\ touched c)).

Lemma mark_spec : forall n i s z, length (cells_types s) = n -> length (triangles_of_cell s) = n -> (0 <= z < Z.of_nat n)%Z ->
  marks n i (fun c => Z.of_nat c = z) s (mark s i z).
Proof.
  intros n i s z L1 L2 Hz. unfold mark, marks. cbn [cells_types triangles_of_cell]. rewrite !update_nth_length.
  split; [exact L1|]. split; [exact L2|]. split; [|split].
  - intros c Hc E. rewrite nth_error_update_nth. destruct (nth_error (cells_types s) c) eqn:En; [|apply nth_error_None in En; lia].
    cbn. replace (c =? Z.to_nat z)%nat with true by (symmetry; apply Nat.eqb_eq; lia). reflexivity.
  - intros c Hc E. rewrite nth_error_update_nth. replace (c =? Z.to_nat z)%nat with false by (symmetry; apply Nat.eqb_neq; lia).
    destruct (nth_error (cells_types s) c); reflexivity.
  - intros c k Hc. 
    assert (Q : nth c (update_nth (Z.to_nat z) (fun l => l ++ [i]) (triangles_of_cell s)) [] =
      if Nat.eqb c (Z.to_nat z) then nth c (triangles_of_cell s) [] ++ [i] else nth c (triangles_of_cell s) []).
    { apply nth_error_nth. rewrite nth_error_update_nth. rewrite (nth_error_nth' _ [] (n := c)) by lia. cbn. destruct (c =? Z.to_nat z); reflexivity. }
    rewrite Q. destruct (Nat.eqb_spec c (Z.to_nat z)) as [E|E].
    + rewrite in_app_iff. simpl. split.
      * intros [H|[H|[]]]; [left; exact H|]. right. split; [auto|lia].
      * intros [H|[H _]]; [left; exact H|right; left; auto].
    + split; [auto|]. intros [H|[_ H]]; [exact H|lia].
Qed.

Lemma marks_trans : forall n i P Q s s1 s2, (forall c, c < n -> P c \/ ~ P c) -> (forall c, c < n -> Q c \/ ~ Q c) ->
  marks n i P s s1 -> marks n i Q s1 s2 -> marks n i (fun c => P c \/ Q c) s s2.
Proof.
  intros n i P Q s s1 s2 DP DQ (A1 & A2 & A3 & A4 & A5) (B1 & B2 & B3 & B4 & B5).
  split; [exact B1|]. split; [exact B2|]. split; [|split].
  - intros c Hc H. destruct (DQ c Hc) as [q|q]; [apply B3; assumption|]. rewrite B4 by assumption. apply A3; tauto.
  - intros c Hc H. rewrite B4 by tauto. apply A4; tauto.
  - intros c k Hc. rewrite B5, A5 by assumption. tauto.
Qed.
Lemma marks_refl : forall n i s, length (cells_types s) = n -> length (triangles_of_cell s) = n -> marks n i (fun _ => False) s s.
Proof. intros n i s L1 L2. repeat split; try assumption; try tauto. Qed.
Lemma marks_ext : forall n i P Q s s', (forall c, c < n -> P c <-> Q c) -> marks n i P s s' -> marks n i Q s s'.
Proof.
  intros n i P Q s s' H (A1 & A2 & A3 & A4 & A5). split; [exact A1|]. split; [exact A2|]. split; [|split].
  - intros c Hc q. apply A3; [exact Hc|]. apply H; assumption.
  - intros c Hc q. apply A4; [exact Hc|]. intros C. apply q, H; assumption.
  - intros c k Hc. rewrite A5 by exact Hc. rewrite (H c Hc). tauto.
Qed.

Lemma fold_marks : forall n i test cells s, Forall (fun z => 0 <= z < Z.of_nat n)%Z cells ->
  length (cells_types s) = n -> length (triangles_of_cell s) = n ->
  marks n i (fun c => In (Z.of_nat c) cells /\ test (Z.of_nat c) = true) s (fold_left (fun s z => if test z then mark s i z else s) cells s).
Proof.
  intros n i test cells. induction cells as [|z cells IH]; intros s F L1 L2; cbn [fold_left].
  - eapply marks_ext; [|apply marks_refl; assumption]. simpl. tauto.
  - inversion F as [|? ? Hz F']; subst. destruct (test z) eqn:E.
    + pose proof (mark_spec _ i s z eq_refl L2 Hz) as M. destruct M as (M1 & M2 & M3).
      eapply marks_ext; [|eapply marks_trans; [| |apply (conj M1 (conj M2 M3))|apply IH; [exact F'|exact M1|exact M2]]].
      * intros c Hc. cbn beta. simpl. split.
        -- intros [<-|[H1 H2]]; [split; [auto|exact E]|auto].
        -- intros [[H1|H1] H2]; [left; congruence|right; auto].
      * intros c _. cbn beta. destruct (Z.eq_dec (Z.of_nat c) z); auto.
      * intros c _. cbn beta. destruct (in_dec Z.eq_dec (Z.of_nat c) cells); [|tauto]. destruct (test (Z.of_nat c)); [tauto|]. right. intros [_ H]; discriminate.
    + eapply marks_ext; [|apply IH; [exact F'|reflexivity|exact L2]]. intros c Hc. cbn beta. simpl. split; [tauto|].
      intros [[->|H] H2]; [congruence|tauto].
Qed.

Section Tag.
Variables (g : grid) (pos : list (list R)) (intersects : Z -> nat -> bool).
Hypothesis Hg : valid_grid g.
Hypothesis Hpos : Forall (in_grid g) pos.
Let n := Z.to_nat (number_of_cells (subdivisions g)).
Definition around (t : list nat) : list Z := cells_enclosing g (map (fun k => nth k pos []) t).
Definition touches (i : nat) (t : list nat) (c : nat) : Prop :=
  In (Z.of_nat c) (around t) /\ (around t = [Z.of_nat c] \/ intersects (Z.of_nat c) i = true).

Lemma touches_dec : forall i t c, touches i t c \/ ~ touches i t c.
Proof.
  intros i t c. unfold touches. destruct (in_dec Z.eq_dec (Z.of_nat c) (around t)) as [I|I]; [|tauto].
  destruct (list_eq_dec Z.eq_dec (around t) [Z.of_nat c]) as [E|E]; [tauto|]. destruct (intersects (Z.of_nat c) i); [tauto|].
  right. intros [_ [H|H]]; [tauto|discriminate].
Qed.

Lemma in_grid_contains : forall p, in_grid g p -> contains g p EPSILON = true.
Proof.
  intros p Hp. unfold contains. destruct Hg as [_ Hv]. clear -Hv Hp. induction Hp as [|a x g p Hx _ IH]; [reflexivity|].
  inversion Hv as [|? ? [Hn Hs] Hv']; subst. cbn [map2 forallb]. rewrite (IH Hv'), andb_true_r.
  assert (0 < EPSILON)%R by (unfold EPSILON; apply Rinv_0_lt_compat, IZR_lt; reflexivity).
  unfold ax_contains. assert (D : (0 <= (x - ax_anchor a) / ax_size a <= 1)%R).
  { split; [apply Rmult_le_pos; [lra|]; left; apply Rinv_0_lt_compat; lra|].
    apply (Rmult_le_reg_r (ax_size a)); [exact Hs|]. unfold Rdiv. rewrite Rmult_assoc, Rinv_l; lra. }
  destruct (Rlt_dec _ _); [lra|]. destruct (Rlt_dec _ _); [lra|]. reflexivity.
Qed.

Lemma around_below : forall t, Forall (fun z => 0 <= z < Z.of_nat n)%Z (around t).
Proof.
  intros t. destruct (enclosing_valid g (map (fun k => nth k pos []) t) Hg) as [F _]. unfold around.
  eapply Forall_impl; [|exact F]. intros z [H1 H2]. unfold n. lia.
Qed.

Lemma around_nonempty : forall t, length t = 3 -> Forall (fun k => k < length pos) t -> around t <> [].
Proof.
  intros t Ht Hk. destruct t as [|k t]; [discriminate|]. inversion Hk as [|? ? Hk0 _]; subst.
  set (p := nth k pos []). assert (Hp : in_grid g p) by (rewrite Forall_forall in Hpos; apply Hpos, nth_In; exact Hk0).
  destruct (tiling_cover g p Hg Hp) as (c & Hc & Bc).
  assert (I : In (cell_index_at (subdivisions g) c) (around (k :: t))).
  { apply (enclosing_covers g _ c p Hg); try assumption.
    - discriminate.
    - rewrite Forall_forall in *. intros q Iq. apply in_map_iff in Iq. destruct Iq as (m & <- & Im). apply Hpos, nth_In, Hk, Im.
    - intros a x E. split; exists p, x; (split; [left; reflexivity|]); (split; [exact E|lra]). }
  intros C. rewrite C in I. destruct I.
Qed.

Lemma tag_triangles_step : forall i t rest s, length t = 3 -> Forall (fun k => k < length pos) t ->
  length (cells_types s) = n -> length (triangles_of_cell s) = n ->
  exists s', marks n i (touches i t) s s' /\ tag_triangles g pos intersects i (t :: rest) s = tag_triangles g pos intersects (S i) rest s'.
Proof.
  intros i t rest s Lt Ht L1 L2. cbn [tag_triangles].
  replace (existsb (fun k => length pos <=? k) t) with false.
  2:{ symmetry. apply not_true_is_false. intros C. apply existsb_exists in C. destruct C as (k & Ik & Ek). apply Nat.leb_le in Ek.
      rewrite Forall_forall in Ht. specialize (Ht k Ik). lia. }
  replace (existsb (fun p => negb (contains g p EPSILON)) (map (fun k => nth k pos []) t)) with false.
  2:{ symmetry. apply not_true_is_false. intros C. apply existsb_exists in C. destruct C as (p & Ip & Ep). apply in_map_iff in Ip.
      destruct Ip as (k & <- & Ik). rewrite in_grid_contains in Ep; [discriminate|]. rewrite Forall_forall in Hpos, Ht. apply Hpos, nth_In, Ht, Ik. }
  fold (around t). pose proof (around_nonempty t Lt Ht) as NE. pose proof (around_below t) as B.
  unfold touches. destruct (around t) as [|z [|y l]] eqn:E; [congruence| |].
  - exists (mark s i z). split; [|reflexivity]. inversion B; subst. eapply marks_ext; [|apply mark_spec; assumption].
    intros c Hc. cbn beta. simpl. split.
    + intros ->. split; [auto|]. left. reflexivity.
    + intros [[H|[]] _]. congruence.
  - eexists. split; [|reflexivity]. eapply marks_ext; [|apply fold_marks; assumption].
    intros c Hc. cbn beta. split; [intros [H1 H2]; auto|]. intros [H1 [H2|H2]]; [discriminate|auto].
Qed.

Lemma tag_triangles_spec : forall triangles i s, Forall (fun t => length t = 3 /\ Forall (fun k => k < length pos) t) triangles ->
  length (cells_types s) = n -> length (triangles_of_cell s) = n ->
  let s' := tag_triangles g pos intersects i triangles s in
  let hits j c := exists k t, j = i + k /\ nth_error triangles k = Some t /\ touches j t c in
  length (cells_types s') = n /\ length (triangles_of_cell s') = n /\
  (forall c, c < n -> (exists j, hits j c) -> nth_error (cells_types s') c = Some Boundary) /\
  (forall c, c < n -> ~ (exists j, hits j c) -> nth_error (cells_types s') c = nth_error (cells_types s) c) /\
  (forall c j, c < n -> In j (nth c (triangles_of_cell s') []) <-> In j (nth c (triangles_of_cell s) []) \/ hits j c).
Proof.
  induction triangles as [|t triangles IH]; intros i s F L1 L2 s' hits.
  - split; [exact L1|]. split; [exact L2|]. split; [|split].
    + intros c _ (j & k & t & _ & E & _). destruct k; discriminate.
    + reflexivity.
    + intros c j _. split; [auto|]. intros [H|(k & t & _ & E & _)]; [exact H|destruct k; discriminate].
  - inversion F as [|? ? [Lt Ht] F']; subst.
    destruct (tag_triangles_step i t triangles s Lt Ht L1 L2) as (s1 & (M1 & M2 & M3 & M4 & M5) & E). unfold s'. rewrite E.
    destruct (IH (S i) s1 F' M1 M2) as (I1 & I2 & I3 & I4 & I5). clear IH E.
    assert (H : forall j c, hits j c <-> (j = i /\ touches i t c) \/ exists k t', j = S i + k /\ nth_error triangles k = Some t' /\ touches j t' c).
    { intros j c. split.
      - intros (k & t' & -> & Et & T). destruct k as [|k]; [left; inversion Et; subst; rewrite Nat.add_0_r in *; auto|].
        right. exists k, t'. replace (S i + k) with (i + S k) by lia. auto.
      - intros [[-> T]|(k & t' & -> & Et & T)]; [exists 0, t; rewrite Nat.add_0_r; auto|]. exists (S k), t'. replace (i + S k) with (S i + k) by lia. auto. }
    split; [exact I1|]. split; [exact I2|]. split; [|split].
    + intros c Hc (j & Hj). apply H in Hj. destruct Hj as [[-> T]|Hj]; [|apply I3; [exact Hc|exists j; exact Hj]].
      destruct (nth_error (cells_types s1) c) as [ty|] eqn:E1; [|apply nth_error_None in E1; lia].
      rewrite M3 in E1 by assumption. inversion E1; subst ty.
      assert (K : forall r k u, length (cells_types u) = n -> length (triangles_of_cell u) = n -> Forall (fun t => length t = 3 /\ Forall (fun k => k < length pos) t) r ->
        nth_error (cells_types u) c = Some Boundary -> nth_error (cells_types (tag_triangles g pos intersects k r u)) c = Some Boundary).
      { clear -Hg Hpos Hc. induction r as [|x r IHr]; intros k u A1 A2 A3 A4; [exact A4|]. inversion A3 as [|? ? [B1 B2] B3]; subst.
        destruct (tag_triangles_step k x r u B1 B2 A1 A2) as (u1 & (N1 & N2 & N3 & N4 & _) & ->). apply IHr; try assumption.
        destruct (touches_dec k x c) as [T|T]; [apply N3; assumption|rewrite N4; assumption]. }
      apply K; try assumption. apply M3; assumption.
    + intros c Hc N. rewrite I4; [|exact Hc|intros (j & Hj); apply N; exists j; apply H; right; exact Hj].
      apply M4; [exact Hc|]. intros T. apply N. exists i. apply H. left. auto.
    + intros c j Hc. rewrite I5, M5 by exact Hc. rewrite H. tauto.
Qed.
End Tag.

(** * Creation *)
Lemma use_cell_kept : forall g classify n type threshold c, valid_grid g -> (length g = 2 \/ length g = 3) ->
  let cells := subdivide_intersected_cells g classify n in
  use_cell cells type threshold c = true <-> kept_cell g cells type threshold c.
Proof.
  intros g classify n type threshold c Hg HD cells. unfold use_cell, kept_cell.
  assert (V : (0 < cell_volume g)%R).
  { unfold cell_volume. destruct Hg as [_ F]. clear -F. induction F as [|a g [Hn Hs] F IH]; simpl; [lra|].
    apply Rmult_lt_0_compat; [|exact IH]. unfold ax_H. apply Rdiv_lt_0_compat; [exact Hs|]. apply IZR_lt. exact Hn. }
  destruct (nth_error cells c) as [t|] eqn:Et.
  - assert (Lv : leaves_of_cell cells c (map (pair c) (leaf_paths [] t))).
    { split; [apply FinFun.Injective_map_NoDup; [intros x y Q; inversion Q; reflexivity|apply leaf_paths_NoDup]|].
      intros [top p]. rewrite in_map_iff. cbn [fst]. split.
      - intros (q & Q & I). inversion Q; subst. split; [|reflexivity]. apply in_leaf_paths in I. destruct I as (w & a & -> & Ea). rewrite app_nil_r.
        exists a, t. auto.
      - intros [(a & s & Es & Ea) ->]. cbn [fst snd] in *. rewrite Et in Es. inversion Es; subst s. exists p. split; [reflexivity|].
        apply in_leaf_paths. exists p, a. rewrite app_nil_r. auto. }
    assert (Lf : is_leaf t = true <-> a_leaf cells (c, [])).
    { destruct t as [a|childs]; simpl; split; intros H; try reflexivity; try discriminate.
      - exists a, (Leaf a). auto.
      - destruct H as (a & s & Es & Ea). cbn [fst snd] in *. rewrite Et in Es. inversion Es; subst s. discriminate. }
    pose proof (fun l => C33_cell_weight g classify n type c t l Hg HD Et) as W. cbv zeta in W. fold cells in W.
    rewrite andb_true_iff. assert (Hc : c < length cells) by (apply nth_error_Some; congruence). split.
    + intros [H1 H2]. split; [exact Hc|]. split.
      * intros [L O]. apply Lf in L. rewrite L, O in H1. discriminate.
      * exists (map (pair c) (leaf_paths [] t)). split; [exact Lv|]. rewrite <- (W _ Lv). apply Rmult_le_compat_r; [lra|].
        destruct (Rle_dec _ _); [assumption|discriminate].
    + intros (_ & H1 & l & Hl & H2). split.
      * destruct (is_leaf t) eqn:E; [|reflexivity]. cbn [negb orb]. destruct (type_eqb_spec (type (c, [])) Outside) as [O|O]; [|reflexivity].
        exfalso. apply H1. split; [apply Lf; reflexivity|exact O].
      * rewrite <- (W _ Hl) in H2. apply Rmult_le_reg_r in H2; [|exact V]. destruct (Rle_dec _ _); [reflexivity|contradiction].
  - split; [discriminate|]. intros [H _]. apply nth_error_None in Et. lia.
Qed.

Lemma finish_grid_ok : forall g classify n threshold s, valid_grid g -> (length g = 2 \/ length g = 3) ->
  let cells := subdivide_intersected_cells g classify n in
  exists st comp, create_regions (subdivisions g) cells (initial_type cells) = Some (Ok st) /\
    finish_grid g classify n threshold s = Some (Ok comp) /\ surface comp = s /\ forest comp = cells /\
    leaf_type comp = snd (tag_inside (tag_outside (subdivisions g) (regions st, initial_type cells))) /\
    grid_regions comp = fst (tag_inside (tag_outside (subdivisions g) (regions st, initial_type cells))) /\
    sparse_grid comp = create_sparse_grid g (use_cell cells (leaf_type comp) threshold).
Proof.
  intros g classify n threshold s Hg HD cells.
  pose proof (C35_subdivision_is_valid g classify n Hg HD) as Hv. fold cells in Hv.
  destruct (create_regions_spec _ g cells Hv (initial_type cells)) as (st & E & _).
  pose proof (C33_validation_passes g classify n (initial_type cells) st Hg HD E) as V. fold cells in V.
  exists st. eexists. split; [exact E|]. unfold finish_grid. fold cells. rewrite E, V. split; [reflexivity|]. repeat split.
Qed.

Lemma existsb_false : forall (A : Type) (f : A -> bool) l, (forall x, In x l -> f x = false) -> existsb f l = false.
Proof. intros A f l H. induction l as [|x l IH]; [reflexivity|]. simpl. rewrite (H x (or_introl eq_refl)), IH; [reflexivity|]. intros y I. apply H. right. exact I. Qed.

Lemma no_bad_reads : forall valid test l e, (forall i, In i l -> valid i = true) -> reads_out_of_range valid test l e = false.
Proof.
  intros valid test l e H. induction l as [|i l IH]; [reflexivity|]. cbn [reads_out_of_range]. rewrite (H i (or_introl eq_refl)). cbn [negb].
  destruct (test e i); [reflexivity|]. apply IH. intros j I. apply H. right. exact I.
Qed.
Lemma subdivision_no_bad_reads : forall D cl bad, (forall e, bad e = false) -> forall n e, subdivision_reads D cl bad n e = false.
Proof.
  intros D cl bad H. induction n as [|n IH]; intros e; cbn [subdivision_reads]; rewrite H; [reflexivity|]. cbn [orb].
  rewrite existsb_false; [apply andb_false_r|]. intros x _. apply IH.
Qed.

Lemma leaf_initial : forall g classify n p, valid_grid g -> (length g = 2 \/ length g = 3) ->
  a_leaf (subdivide_intersected_cells g classify n) p ->
  initial_type (subdivide_intersected_cells g classify n) p = fst (classify (fst p) (element g p)).
Proof.
  intros g classify n p Hg HD (a & t & Et & Ea). unfold initial_type, leaf_data. rewrite Et, Ea. destruct a as [ty w].
  pose proof Et as Et'. unfold subdivide_intersected_cells in Et. rewrite nth_error_map in Et.
  destruct (nth_error (seq 0 (Z.to_nat (number_of_cells (subdivisions g)))) (fst p)) as [c|] eqn:Ec; [|discriminate].
  assert (c = fst p).
  { assert (H : fst p < length (seq 0 (Z.to_nat (number_of_cells (subdivisions g))))) by (apply nth_error_Some; congruence).
    rewrite (nth_error_nth' _ 0 H), seq_nth in Ec by (rewrite seq_length in H; exact H). inversion Ec. reflexivity. }
  subst c. cbn [option_map] in Et. inversion Et as [Et2]. rewrite <- Et2 in Ea. apply (subdivide_leaf _ _ HD) in Ea. destruct Ea as [E _].
  cbn [fst] in E. exact E.
Qed.
