(** C64: bounding boxes of the force fields. *)

From Coq Require Import Reals List Arith Lia Lra.
From Flocq Require Import Core.Raux.
From Verif Require Import BBoxModel BBoxSpec.
Import ListNotations.
Open Scope R_scope.

(** ** The loop, axis by axis *)

Lemma update_cases b x :
  (snd b < x /\ update b x = (fst b, x)) \/ (x <= snd b /\ x < fst b /\ update b x = (x, snd b)) \/
  (x <= snd b /\ fst b <= x /\ update b x = b).
Proof.
  destruct b as [lo hi]. unfold update. cbn.
  destruct (Rlt_bool_spec hi x); [left; auto|right].
  destruct (Rlt_bool_spec x lo); [left | right]; auto.
Qed.

Lemma bbox_axes : forall positions b0 b1 b2,
  Forall (fun x => length x = 3%nat) positions ->
  fold_left update_node positions (Some [b0; b1; b2]) =
  Some [ fold_left update (map (coordinate 0) positions) b0;
         fold_left update (map (coordinate 1) positions) b1;
         fold_left update (map (coordinate 2) positions) b2 ].
Proof.
  induction positions as [|x l IH]; intros b0 b1 b2 F; [reflexivity|].
  inversion F as [|? ? Hx Hl]; subst.
  destruct x as [|x0 [|x1 [|x2 [|]]]]; try discriminate.
  cbn [fold_left update_node map coordinate nth]. apply IH; assumption.
Qed.

Lemma computeBBox_axis limit positions c :
  positions_in 3 limit positions -> (c < 3)%nat ->
  exists box, computeBBox limit positions = Some box /\
    nth c box (0, 0) = fold_left update (map (coordinate c) positions) (limit, - limit).
Proof.
  intros P Hc. unfold computeBBox. cbn [repeat]. rewrite bbox_axes
    by (apply Forall_forall; intros x Hx; apply P, Hx).
  eexists. split; [reflexivity|]. destruct c as [|[|[|c]]]; [reflexivity..|lia].
Qed.

Lemma fold_upper : forall l lo hi,
  let b := fold_left update l (lo, hi) in
  hi <= snd b /\ (forall x, In x l -> x <= snd b) /\ (snd b = hi \/ In (snd b) l).
Proof.
  induction l as [|x l IH]; intros lo hi; cbn zeta.
  - cbn. split; [lra|]. split; [easy|]. left. reflexivity.
  - cbn [fold_left].
    destruct (update_cases (lo, hi) x) as [[H ->] | [[H [H' ->]] | [H [H' ->]]]]; cbn [fst snd] in *.
    + destruct (IH lo x) as [A [B C]]. split; [lra|]. split.
      * intros y [<- | Hy]; [lra|apply B, Hy].
      * right. cbn. destruct C as [-> | C]; auto.
    + destruct (IH x hi) as [A [B C]]. split; [lra|]. split.
      * intros y [<- | Hy]; [lra|apply B, Hy].
      * cbn. destruct C as [-> | C]; auto.
    + destruct (IH lo hi) as [A [B C]]. split; [lra|]. split.
      * intros y [<- | Hy]; [lra|apply B, Hy].
      * cbn. destruct C as [-> | C]; auto.
Qed.

Lemma fold_lower : forall l lo hi,
  let b := fold_left update l (lo, hi) in
  fst b <= lo /\ (fst b = lo \/ In (fst b) l) /\ (forall x, In x l -> x <= hi -> fst b <= x).
Proof.
  induction l as [|x l IH]; intros lo hi; cbn zeta.
  - cbn. split; [lra|]. split; [left; reflexivity|easy].
  - cbn [fold_left].
    destruct (update_cases (lo, hi) x) as [[H ->] | [[H [H' ->]] | [H [H' ->]]]]; cbn [fst snd] in *.
    + destruct (IH lo x) as [A [B C]]. split; [lra|]. split; [cbn; tauto|].
      intros y [<- | Hy] L; [lra|]. apply C; [assumption|lra].
    + destruct (IH x hi) as [A [B C]]. split; [lra|]. split; [cbn; destruct B as [-> | B]; auto|].
      intros y [<- | Hy] L; [lra|]. apply C; [assumption|lra].
    + destruct (IH lo hi) as [A [B C]]. split; [lra|]. split; [cbn; tauto|].
      intros y [<- | Hy] L; [lra|]. apply C; [assumption|lra].
Qed.

(** Entries above a bound leave the lower corner above this bound. *)
Lemma fold_above : forall l lo hi m, m < lo -> (forall x, In x l -> m < x) -> m < fst (fold_left update l (lo, hi)).
Proof.
  intros l lo hi m Hlo Hl. destruct (fold_lower l lo hi) as [_ [[-> | H] _]]; [assumption|apply Hl, H].
Qed.

(** ** Theorems *)

(** The upper corner is right: along each axis it is the largest coordinate of the nodes. *)
Theorem C64_upper_corner :
  forall limit positions c,
    positions_in 3 limit positions -> positions <> [] -> (c < 3)%nat ->
    exists box, computeBBox limit positions = Some box /\ largest c positions (snd (nth c box (0, 0))).
Proof.
  intros limit positions c P N Hc.
  destruct (computeBBox_axis limit positions c P Hc) as [box [E EB]]. exists box. split; [assumption|]. rewrite EB. clear EB.
  destruct (fold_upper (map (coordinate c) positions) limit (- limit)) as [_ [B C]].
  split.
  - intros x Hx. apply B, in_map, Hx.
  - destruct C as [C | C].
    + exfalso. destruct positions as [|x l]; [congruence|].
      specialize (B (coordinate c x) (or_introl eq_refl)). rewrite C in B.
      destruct (P x (or_introl eq_refl)) as [_ Hx]. specialize (Hx c Hc). lra.
    + apply in_map_iff in C. destruct C as [x [Hx I]]. exists x. auto.
Qed.
Print Assumptions C64_upper_corner.

(** The lower corner is right along an axis exactly when some node other than the first one attains the smallest
    coordinate.  (Missing: the other case, where the claim is false, see below.) *)
Theorem C64_lower_corner_partial :
  forall limit first others c,
    positions_in 3 limit (first :: others) -> (c < 3)%nat ->
    exists box, computeBBox limit (first :: others) = Some box /\
      (smallest c (first :: others) (fst (nth c box (0, 0))) <->
       exists x, In x others /\ forall y, In y (first :: others) -> coordinate c x <= coordinate c y).
Proof.
  intros limit first others c P Hc.
  destruct (computeBBox_axis limit (first :: others) c P Hc) as [box [E EB]]. exists box. split; [assumption|]. rewrite EB. clear EB.
  cbn [map fold_left].
  destruct (P first (or_introl eq_refl)) as [_ Hf]. specialize (Hf c Hc).
  destruct (update_cases (limit, - limit) (coordinate c first)) as [[_ ->] | [[H _] | [H _]]];
    cbn [fst snd] in *; [|lra|lra].
  set (l := map (coordinate c) others).
  destruct (fold_lower l limit (coordinate c first)) as [A [B C]].
  set (b := fst (fold_left update l (limit, coordinate c first))) in *.
  assert (D : forall x, In x others -> coordinate c x < limit).
  { intros x Hx. destruct (P x (or_intror Hx)) as [_ H]. apply H, Hc. }
  split.
  - intros [S _]. destruct B as [B | B].
    + specialize (S first (or_introl eq_refl)). lra.
    + apply in_map_iff in B. destruct B as [x [Hx I]]. exists x. split; [assumption|].
      intros y Hy. rewrite Hx. apply S, Hy.
  - intros [x [I Hx]].
    assert (Bx : b <= coordinate c x).
    { apply C; [apply in_map, I|]. apply Hx. left. reflexivity. }
    split.
    + intros y Hy. specialize (Hx y Hy). lra.
    + destruct B as [B | B].
      * specialize (D x I). lra.
      * apply in_map_iff in B. destruct B as [y [Hy I']]. exists y. split; [right; assumption|assumption].
Qed.
Print Assumptions C64_lower_corner_partial.

(** When the first node is the only one with the smallest coordinate, the box does not contain it: its lower corner
    is strictly above this node. *)
Theorem C64_contains_first_node_refuted :
  forall limit first others c,
    positions_in 3 limit (first :: others) -> (c < 3)%nat ->
    (forall x, In x others -> coordinate c first < coordinate c x) ->
    exists box, computeBBox limit (first :: others) = Some box /\ coordinate c first < fst (nth c box (0, 0)).
Proof.
  intros limit first others c P Hc H.
  destruct (computeBBox_axis limit (first :: others) c P Hc) as [box [E EB]]. exists box. split; [assumption|]. rewrite EB. clear EB.
  cbn [map fold_left].
  destruct (P first (or_introl eq_refl)) as [_ Hf]. specialize (Hf c Hc).
  destruct (update_cases (limit, - limit) (coordinate c first)) as [[_ ->] | [[H' _] | [H' _]]];
    cbn [fst snd] in *; [|lra|lra].
  apply fold_above; [lra|]. intros x Hx. apply in_map_iff in Hx. destruct Hx as [y [<- I]]. apply H, I.
Qed.
Print Assumptions C64_contains_first_node_refuted.

(** When the coordinates increase strictly from each node to the next, the lower corner is never written: the box is
    inverted, [max(), largest coordinate]. *)
Theorem C64_increasing_refuted :
  forall limit positions c,
    positions_in 3 limit positions -> (c < 3)%nat ->
    (forall i j, (i < j < length positions)%nat -> coordinate c (nth i positions []) < coordinate c (nth j positions [])) ->
    exists box, computeBBox limit positions = Some box /\ fst (nth c box (0, 0)) = limit.
Proof.
  intros limit positions c P Hc M.
  destruct (computeBBox_axis limit positions c P Hc) as [box [E EB]]. exists box. split; [assumption|]. rewrite EB. clear EB.
  assert (G : forall l lo hi, (forall x, In x l -> hi < coordinate c x) ->
    (forall i j, (i < j < length l)%nat -> coordinate c (nth i l []) < coordinate c (nth j l [])) ->
    fst (fold_left update (map (coordinate c) l) (lo, hi)) = lo).
  { clear. induction l as [|x l IH]; intros lo hi H M; [reflexivity|]. cbn [map fold_left].
    pose proof (H x (or_introl eq_refl)).
    destruct (update_cases (lo, hi) (coordinate c x)) as [[_ ->] | [[H' _] | [H' _]]]; cbn [fst snd] in *; [|lra|lra].
    apply IH.
    - intros y Hy. destruct (In_nth l y [] Hy) as [k [Hk <-]].
      apply (M 0%nat (S k)). cbn. lia.
    - intros i j Hij. apply (M (S i) (S j)). cbn. lia. }
  apply G; [|assumption]. intros x Hx. apply P; assumption.
Qed.
Print Assumptions C64_increasing_refuted.

(** In the two dimensional instances the third component is read out of the node. *)
Theorem C64_planar_refuted :
  forall limit first others, length first = 2%nat -> computeBBox limit (first :: others) = None.
Proof.
  intros limit first others H. destruct first as [|a [|b [|]]]; try discriminate.
  unfold computeBBox. cbn. induction others as [|x l IH]; [reflexivity|]. exact IH.
Qed.
Print Assumptions C64_planar_refuted.

(** ** Witnesses *)
Definition corners : list (list R) := [ [1; 5; 0]; [0; 3; 4]; [2; 4; 8] ].
Example C64_witness :
  positions_in 3 100 corners /\ (exists x, In x (tl corners) /\ forall y, In y corners -> coordinate 0 x <= coordinate 0 y) /\
  (forall x, In x (tl corners) -> coordinate 2 (hd [] corners) < coordinate 2 x) /\
  (forall i j, (i < j < length corners)%nat -> coordinate 2 (nth i corners []) < coordinate 2 (nth j corners [])).
Proof.
  unfold corners, coordinate, positions_in. split; [|split; [|split]].
  - intros x [<- | [<- | [<- | []]]]; (split; [reflexivity|]);
      intros [|[|[|c]]] H; unfold coordinate; cbn; try lra; lia.
  - exists [0; 3; 4]. split; [cbn; auto|]. intros y [<- | [<- | [<- | []]]]; cbn; lra.
  - intros y [<- | [<- | []]]; cbn; lra.
  - cbn [length]. intros i j H. destruct i as [|[|[|i]]], j as [|[|[|j]]]; try lia; cbn; lra.
Qed.
