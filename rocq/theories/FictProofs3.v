(** Proofs about the fictitious grid, continued: sub-cells on the border of the grid, the faces of a cell. *)

From Coq Require Import ZArith Reals Lra Lia.
From Coq Require Import List Arith Bool.
From Verif Require Import GridModel GridSpec GridProofs GridGeoModel GridGeoSpec GridGeoProofs FictModel FictSpec FictProofs FictProofs2.
Import ListNotations.
Open Scope nat_scope.
Local Arguments Z.mul : simpl never.

Lemma facing_nonempty : forall (A : Type) D axis s (t : tree A), (D = 2 \/ D = 3) -> axis < D -> (s = 0 \/ s = 1)%Z -> full D t ->
  forall p, facing D axis s p t <> [].
Proof.
  intros A D axis s t HD Ha Hs. induction t as [a|childs IH] using tree_ind'; intros Hf p; simpl; [discriminate|].
  inversion Hf as [|? Hl Hc]; subst.
  assert (exists i, i < 2 ^ D /\ bit D axis i = s) as (i & Hi & Hb).
  { destruct HD as [->| ->]; [apply below2 in Ha|apply below3 in Ha]; destruct Hs as [->| ->];
      [exists 0|exists 3|exists 0|exists 7]; (split; [simpl; lia|]); repeat destruct Ha as [->|Ha]; try subst axis; reflexivity. }
  destruct (nth_error childs i) as [c|] eqn:E; [|apply nth_error_None in E; lia].
  rewrite Forall_forall in IH, Hc.
  assert (Ic : In c childs) by (eapply nth_error_In; eassumption).
  intros C. destruct (facing D axis s (i :: p) c) as [|v l] eqn:F; [exact (IH c Ic (Hc c Ic) _ F)|].
  assert (In v []) as []. rewrite <- C. apply in_concat. exists (v :: l). split; [|left; reflexivity].
  apply -> in_rev. apply in_mapi. exists i, c. split; [exact E|]. simpl. fold (bit D axis i). rewrite Hb, Z.eqb_refl. symmetry. exact F.
Qed.

Lemma subdivide_full : forall D classify levels e weight, (D = 2 \/ D = 3) -> full D (subdivide D classify levels e weight).
Proof.
  intros D classify levels. induction levels as [|levels IH]; intros e weight HD; simpl; destruct (classify e) as [ty sub].
  - constructor.
  - destruct sub; [|constructor]. constructor.
    + unfold get_subcells_elements. rewrite !map_length. destruct HD as [->| ->]; reflexivity.
    + apply Forall_forall. intros t Ht. apply in_map_iff in Ht. destruct Ht as (e' & <- & _). apply IH. exact HD.
Qed.

Section Grid.
Variable g : grid.
Hypothesis Hg : valid_grid g.
Let D := length g.
Let ns := subdivisions g.
Hypothesis HD : D = 2 \/ D = 3.
Variable A : Type.
Variable cells : list (tree A).
Hypothesis Hcells : Z.of_nat (length cells) = number_of_cells ns.
Hypothesis Hfull : Forall (full D) cells.

Notation okp := (okp g).
Notation at_ := (at_ g).

Open Scope R_scope.

Notation on_border := (on_border g).

Lemma on_border_at : forall axis dir p, okp p -> (axis < D)%nat ->
  on_border axis dir p <->
  (if dir <? 0 then at_ p axis = 0 else at_ p axis + 1 = ax_n (nth axis g axis0) * 2 ^ Z.of_nat (length (snd p)))%Z.
Proof.
  intros axis dir [t p] [Ht Hp] Ha. cbn [fst snd] in *. unfold FictSpec.on_border, FictProofs2.at_. cbn [fst snd].
  rewrite (element_upper g Hg HD _ _ Ht Hp axis Ha), (proj2 (proj2 (element_ok g Hg HD _ _ Ht Hp) axis Ha)).
  fold D. pose proof (ax_H_pos g Hg axis Ha) as Hp'.
  assert (Hn : (0 < ax_n (nth axis g axis0))%Z).
  { destruct Hg as [_ F]. rewrite Forall_forall in F. destruct (F (nth axis g axis0)) as [Q _]; [apply nth_In; exact Ha|exact Q]. }
  assert (Hs : ax_size (nth axis g axis0) = ax_H (nth axis g axis0) * (IZR (ax_n (nth axis g axis0)) / 2 ^ 0)).
  { unfold ax_H. simpl. field. apply not_0_IZR. lia. }
  destruct (dir <? 0)%Z.
  - replace (ax_anchor (nth axis g axis0)) with (ax_anchor (nth axis g axis0) + ax_H (nth axis g axis0) * (0 / 2 ^ 0)) at 2 by (simpl; field).
    rewrite affine_eq, frac_eq by assumption. split; intros H; simpl in *; lia.
  - rewrite Hs. rewrite affine_eq, frac_eq by assumption. split; intros H; simpl in *; lia.
Qed.

Lemma neighbors_border : forall axis dir p a, leaf cells p a -> (axis < D)%nat -> (dir = 1 \/ dir = -1)%Z ->
  get_neighbors ns cells p axis dir = Some [] <-> on_border axis dir p.
Proof.
  intros axis dir p a Lp Ha Hd. pose proof (leaf_okp g A cells Hcells Hfull _ _ Lp) as Op.
  rewrite (on_border_at axis dir p Op Ha). pose proof (at_range g Hg HD p axis Op Ha) as R.
  destruct (neighbors_target g Hg HD A cells Hcells Hfull axis Ha dir Hd p a Lp)
    as [(E & Hout)|(t' & u' & tr & v & w' & s & Ot & Hl & Hat & Etr & Es & Hu & Hs & E)].
  - fold ns in E. rewrite E. split; [intros _|reflexivity].
    destruct Hd as [-> | ->]; cbn [Z.ltb Z.compare]; lia.
  - fold ns in E. rewrite E. pose proof (at_range g Hg HD _ axis Ot Ha) as R'. rewrite (Hat axis Ha), Nat.eqb_refl in R'. cbn [snd] in R'.
    rewrite Hl in R'. split; intros H.
    + exfalso. inversion H as [H1]. apply map_eq_nil in H1. revert H1. apply facing_nonempty; try assumption.
      * unfold search_axis. destruct (dir <? 0)%Z; auto.
      * eapply full_subtree; [|exact Es]. eapply (cell_full g A cells Hcells Hfull). exact Etr.
    + exfalso. destruct Hd as [-> | ->]; cbn [Z.ltb Z.compare] in H; lia.
Qed.

(** * All the faces *)

Definition directions : list (nat * Z) := list_prod (seq 0 D) [-1; 1]%Z.

Lemma in_directions : forall axis dir, In (axis, dir) directions <-> (axis < D)%nat /\ (dir = 1 \/ dir = -1)%Z.
Proof.
  clear. intros axis dir. unfold directions. rewrite in_prod_iff, in_seq. simpl. intuition lia.
Qed.

Lemma faces_of_spec : forall p a, leaf cells p a ->
  exists fs, faces_of ns cells p = Some fs /\
    Forall2 (fun ad l => get_neighbors ns cells p (fst ad) (snd ad) = Some l) directions fs.
Proof.
  intros p a Lp. unfold faces_of.
  replace (length ns) with D by (unfold ns, subdivisions; rewrite map_length; reflexivity). fold directions.
  assert (H : forall ad, In ad directions -> exists l, get_neighbors ns cells p (fst ad) (snd ad) = Some l).
  { intros [axis dir] H. apply in_directions in H as [Ha Hd].
    destruct (neighbors_exact g Hg HD A cells Hcells Hfull axis Ha dir Hd p a Lp) as (l & E & _). exists l. exact E. }
  induction directions as [|ad ds IH]; simpl.
  - exists []. split; [reflexivity|constructor].
  - destruct IH as (fs & E & F); [intros; apply H; right; assumption|]. rewrite E.
    destruct (H ad) as (l & El); [left; reflexivity|]. rewrite El. exists (l :: fs). split; [reflexivity|]. constructor; assumption.
Qed.

(** * touches_border *)

Lemma nth_mapi : forall (X Y : Type) (f : nat -> X -> Y) l k i dx dy, (i < length l)%nat -> nth i (mapi f k l) dy = f (k + i)%nat (nth i l dx).
Proof.
  intros X Y f. induction l as [|x l IH]; intros k i dx dy H; simpl in H; [lia|]. destruct i; simpl.
  - rewrite Nat.add_0_r. reflexivity.
  - rewrite IH with (dx := dx) by lia. f_equal. lia.
Qed.

(** The bit [k] after narrowing. *)
Lemma narrow_nth : forall bits lo hi k, length bits = 6%nat -> (k < 6)%nat ->
  nth k (narrow D bits lo hi) false =
  if (k / 2 <? D)%nat then nth k bits false && (if Nat.even k then lo (k / 2)%nat else hi (k / 2)%nat) else nth k bits false.
Proof. intros bits lo hi k Hl Hk. unfold narrow. rewrite nth_mapi with (dx := false) by lia. reflexivity. Qed.
Lemma narrow_length : forall bits lo hi, length (narrow D bits lo hi) = length bits.
Proof. intros. apply length_mapi. Qed.

Lemma narrow_up_spec : forall p bits, length bits = 6%nat -> good D p ->
  length (narrow_up D p bits) = 6%nat /\
  forall k, (k < 6)%nat ->
    nth k (narrow_up D p bits) false = true <->
    (nth k bits false = true /\ ((k / 2 < D)%nat -> Forall (fun i => bit D (k / 2) i = if Nat.even k then 0%Z else 1%Z) p)).
Proof.
  induction p as [|i p IH]; intros bits Hl Hp; simpl narrow_up.
  - split; [exact Hl|]. intros k Hk. split; [intros H; split; [exact H|constructor]|tauto].
  - inversion Hp as [|? ? Hi Hp']; subst.
    set (bits' := narrow D bits (fun axis : nat => (nth axis (coordinates_of D i) 0 =? 0)%Z) (fun axis : nat => (nth axis (coordinates_of D i) 0 =? 1)%Z)).
    destruct (IH bits') as [IH1 IH2]; [unfold bits'; rewrite narrow_length; exact Hl|exact Hp'|].
    split; [exact IH1|]. intros k Hk. rewrite (IH2 k Hk). unfold bits'. rewrite narrow_nth by assumption.
    destruct (Nat.ltb_spec (k / 2) D) as [C|C].
    + rewrite andb_true_iff. fold (bit D (k / 2) i).
      assert (B : (if Nat.even k then (bit D (k / 2) i =? 0)%Z else (bit D (k / 2) i =? 1)%Z) = true <-> bit D (k / 2) i = if Nat.even k then 0%Z else 1%Z).
      { destruct (Nat.even k); rewrite Z.eqb_eq; reflexivity. }
      rewrite B. split.
      * intros [[H1 H2] H3]. split; [exact H1|]. intros _. constructor; [exact H2|apply H3; exact C].
      * intros [H1 H2]. specialize (H2 C). inversion H2; subst. auto.
    + split; intros [H1 H2]; (split; [exact H1|]); intros; lia.
Qed.

Lemma touches_border_spec : forall p, okp p -> D = 3%nat ->
  touches_border ns p = true <-> exists axis dir, (axis < D)%nat /\ (dir = 1 \/ dir = -1)%Z /\ on_border axis dir p.
Proof.
  intros [top p] [Ht Hp] D3. cbn [fst snd] in Ht, Hp. unfold touches_border.
  replace (length ns) with D by (unfold ns, subdivisions; rewrite map_length; reflexivity).
  destruct (narrow_up_spec p (repeat true 6) eq_refl Hp) as [L1 B].
  set (bits := narrow_up D p (repeat true 6)) in *.
  set (lo := fun axis : nat => (nth axis (cell_coordinates_of_index ns (Z.of_nat top)) 0 =? 0)%Z).
  set (hi := fun axis : nat => (nth axis (cell_coordinates_of_index ns (Z.of_nat top)) 0 =? nth axis ns 0 - 1)%Z).
  assert (Bit : forall k, (k < 6)%nat -> nth k (narrow D bits lo hi) false = true <->
            on_border (k / 2) (if Nat.even k then (-1)%Z else 1%Z) (top, p)).
  { intros k Hk. assert (Hk2 : (k / 2 < D)%nat) by (rewrite D3; apply Nat.div_lt_upper_bound; lia).
    rewrite narrow_nth by assumption. destruct (Nat.ltb_spec (k / 2) D); [|lia]. rewrite andb_true_iff, (B k Hk).
    rewrite on_border_at; [|split; assumption|exact Hk2].
    assert (Ep : nth k (repeat true 6) false = true) by (do 6 (destruct k; [reflexivity|]); lia).
    rewrite Ep. unfold FictProofs2.at_. cbn [fst snd].
    pose proof (coord_range g Hg top (k / 2) Ht Hk2) as C.
    pose proof (pos_bounds D HD (k / 2) (coord g top (k / 2)) p Hk2 Hp) as PB.
    assert (Pw : (0 < 2 ^ Z.of_nat (length p))%Z) by (apply Z.pow_pos_nonneg; lia).
    pose proof (nth_subdivisions g (k / 2)) as En. fold ns in En.
    unfold lo, hi. change (nth (k / 2) (cell_coordinates_of_index ns (Z.of_nat top)) 0%Z) with (coord g top (k / 2)).
    rewrite En. fold D. destruct (Nat.even k); cbn [Z.ltb Z.compare].
    - rewrite Z.eqb_eq. split.
      + intros [[_ H1] H2]. rewrite H2. apply pos_zeros; [assumption|assumption|assumption|]. apply H1. exact Hk2.
      + intros H1. assert (C0 : coord g top (k / 2) = 0%Z) by nia. split; [|exact C0]. split; [reflexivity|]. intros _.
        apply (pos_zeros D HD (k / 2) 0 p Hk2 Hp). rewrite C0 in H1. exact H1.
    - rewrite Z.eqb_eq. split.
      + intros [[_ H1] H2]. replace (ax_n (nth (k / 2) g axis0)) with (coord g top (k / 2) + 1)%Z by lia.
        apply pos_ones; [assumption|assumption|assumption|]. apply H1. exact Hk2.
      + intros H1. assert (C0 : (coord g top (k / 2) + 1 = ax_n (nth (k / 2) g axis0))%Z) by nia. split; [|lia]. split; [reflexivity|]. intros _.
        apply (pos_ones D HD (k / 2) (coord g top (k / 2)) p Hk2 Hp). rewrite C0. exact H1. }
  rewrite existsb_exists. split.
  - intros (b & Hin & Hb). subst b. apply In_nth with (d := false) in Hin. destruct Hin as (k & Hk & E).
    rewrite narrow_length, L1 in Hk. apply (Bit k Hk) in E.
    exists (k / 2)%nat, (if Nat.even k then (-1)%Z else 1%Z). split; [rewrite D3; apply Nat.div_lt_upper_bound; lia|].
    split; [destruct (Nat.even k); auto|exact E].
  - intros (axis & dir & Ha & Hd & H). exists true. split; [|reflexivity].
    rewrite D3 in Ha. set (k := (2 * axis + (if (dir <? 0)%Z then 0 else 1))%nat).
    assert (Hk : (k < 6)%nat) by (unfold k; destruct (dir <? 0)%Z; lia).
    assert (E : nth k (narrow D bits lo hi) false = true).
    { apply (Bit k Hk). assert (k / 2 = axis)%nat as ->.
      { unfold k. destruct (dir <? 0)%Z; symmetry; [apply Nat.div_unique with 0%nat|apply Nat.div_unique with 1%nat]; lia. }
      assert ((if Nat.even k then (-1)%Z else 1%Z) = dir) as ->; [|exact H].
      apply below3 in Ha. unfold k. destruct Hd as [-> | ->]; repeat destruct Ha as [->|Ha]; try subst axis; reflexivity. }
    rewrite <- E. apply nth_In. rewrite narrow_length, L1. exact Hk.
Qed.

(** In 2D two bits stay set: the test always succeeds. *)
Lemma touches_border_2D : forall p, good D (snd p) -> D = 2%nat -> touches_border ns p = true.
Proof.
  intros [top p] Hp D2. cbn [snd] in Hp. unfold touches_border.
  replace (length ns) with D by (unfold ns, subdivisions; rewrite map_length; reflexivity).
  destruct (narrow_up_spec p (repeat true 6) eq_refl Hp) as [L1 B].
  apply existsb_exists. exists true. split; [|reflexivity].
  match goal with |- In true (narrow ?d ?b ?l ?h) => assert (E : nth 4 (narrow d b l h) false = true) end.
  { rewrite narrow_nth by (assumption || lia). destruct (Nat.ltb_spec (4 / 2) D) as [C|C]; [rewrite D2 in C; simpl in C; lia|].
    apply B; [lia|]. split; [reflexivity|]. simpl. intros; lia. }
  match goal with |- In true ?l => assert (I : In (nth 4 l false) l) end.
  { apply nth_In. rewrite narrow_length, L1. lia. }
  rewrite E in I. exact I.
Qed.

End Grid.
