(** Lemmas on the implicit surfaces. *)

From Coq Require Import ZArith Reals Lra Lia.
From Coq Require Import List Arith Bool.
From Verif Require Import GridModel GridGeoModel GridGeoSpec ShapeModel Sums FictModel FictSpec IsoModel IsoSpec.
Import ListNotations.
Open Scope R_scope.

Lemma squared_distance_sum : forall x c, squared_distance x c = Rsum (map (fun p => (fst p - snd p) ^ 2) (combine x c)).
Proof. induction x as [|a x IH]; intros [|b c]; cbn [squared_distance combine map Rsum fst snd]; try reflexivity. rewrite IH. unfold Rsum. cbn [fold_right]. ring. Qed.
Lemma squared_distance_pos : forall x c, 0 <= squared_distance x c.
Proof. induction x as [|a x IH]; intros [|b c]; cbn [squared_distance]; try lra. specialize (IH c). pose proof (Rle_0_sqr (a - b)) as S. unfold Rsqr in S. lra. Qed.
Lemma distance_squared : forall x c, squared_distance x c = distance x c * distance x c.
Proof. intros x c. unfold distance. rewrite <- squared_distance_sum, sqrt_sqrt; [reflexivity|apply squared_distance_pos]. Qed.
Lemma distance_pos : forall x c, 0 <= distance x c.
Proof. intros; apply sqrt_pos. Qed.

(** The sign of [d * d - r * r]. *)
Lemma sign_of_squares : forall d r, 0 <= d ->
  (d * d - r * r < 0 <-> d < Rabs r) /\ (d * d - r * r = 0 <-> d = Rabs r) /\ (0 < d * d - r * r <-> Rabs r < d).
Proof.
  intros d r H. pose proof (Rabs_pos r) as P. assert (E : r * r = Rabs r * Rabs r) by (rewrite <- Rabs_mult, Rabs_pos_eq; [reflexivity|nra]).
  rewrite E. set (a := Rabs r) in *. clearbody a. repeat split; intros; nra.
Qed.

(** A box is at most as far from a point as its farthest corner. *)
Lemma farthest_corner : forall g c x, closed_cell g c x -> forall p, exists y, corner_of g c y /\ squared_distance x p <= squared_distance y p.
Proof.
  intros g c x H. induction H as [|a g i c x l Hx _ IH]; intros p.
  - exists []. split; [constructor|lra].
  - destruct p as [|q p].
    + destruct (IH []) as (y & Hy & _). exists (plane a i :: y). split; [constructor; [left; reflexivity|exact Hy]|]. cbn; lra.
    + destruct (IH p) as (y & Hy & Hd). destruct (Rle_dec (x - q) 0).
      * exists (plane a i :: y). split; [constructor; [left; reflexivity|exact Hy]|]. cbn [squared_distance]. nra.
      * exists (plane a (i + 1) :: y). split; [constructor; [right; reflexivity|exact Hy]|]. cbn [squared_distance]. nra.
Qed.
Lemma axiswise_length : forall P g c x, axiswise P g c x -> length x = length g.
Proof. intros P g c x H. induction H; cbn; congruence. Qed.
Lemma corner_in_cell : forall g, Forall valid_axis g -> forall k x, corner_of g k x -> closed_cell g k x.
Proof.
  intros g Hg k x H. induction H as [|a g i k x l Hx _ IH]; [constructor|]. inversion Hg as [|? ? [Hn Hs] Hg']; subst.
  constructor; [|apply IH, Hg']. assert (Hn' : 0 < IZR (ax_n a)) by (apply IZR_lt; exact Hn).
  assert (L : plane a i <= plane a (i + 1)).
  { unfold plane. rewrite plus_IZR. assert (0 <= ax_size a / IZR (ax_n a)) by (apply Rlt_le, Rdiv_lt_0_compat; assumption).
    unfold Rdiv in *. nra. }
  destruct Hx; subst; lra.
Qed.
Lemma a_corner : forall g k, length g = length k -> exists x, corner_of g k x.
Proof.
  induction g as [|a g IH]; intros [|i k] E; try discriminate; [exists []; constructor|].
  destruct (IH k) as (x & Hx); [cbn in E; lia|]. exists (plane a i :: x). constructor; [left; reflexivity|exact Hx].
Qed.
