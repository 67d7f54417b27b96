(** Finite sums of reals: lemmas about [Rsum] of a map. *)

From Coq Require Import Reals Lra Lia List Arith Permutation.
From Verif Require Import GridGeoModel ShapeModel.
Import ListNotations.
Open Scope R_scope.

Lemma Rsum_app : forall a b, Rsum (a ++ b) = Rsum a + Rsum b.
Proof. induction a as [|x a IH]; intros b; simpl; [lra|]. rewrite IH. lra. Qed.
Lemma Rsum_ext : forall (A : Type) (f g : A -> R) l, (forall x, In x l -> f x = g x) -> Rsum (map f l) = Rsum (map g l).
Proof.
  induction l as [|x l IH]; intros H; simpl; [reflexivity|]. rewrite (H x), IH; [reflexivity| |left; reflexivity].
  intros y Hy. apply H. right. exact Hy.
Qed.
Lemma Rsum_plus : forall (A : Type) (f g : A -> R) l,
  Rsum (map (fun x => f x + g x) l) = Rsum (map f l) + Rsum (map g l).
Proof. induction l as [|x l IH]; simpl; [lra|]. rewrite IH. lra. Qed.
Lemma Rsum_minus : forall (A : Type) (f g : A -> R) l,
  Rsum (map (fun x => f x - g x) l) = Rsum (map f l) - Rsum (map g l).
Proof. induction l as [|x l IH]; simpl; [lra|]. rewrite IH. lra. Qed.
Lemma Rsum_opp : forall (A : Type) (f : A -> R) l, Rsum (map (fun x => - f x) l) = - Rsum (map f l).
Proof. induction l as [|x l IH]; simpl; [lra|]. rewrite IH. lra. Qed.
Lemma Rsum_scal_l : forall (A : Type) (f : A -> R) k l, Rsum (map (fun x => k * f x) l) = k * Rsum (map f l).
Proof. induction l as [|x l IH]; simpl; [lra|]. rewrite IH. lra. Qed.
Lemma Rsum_scal_r : forall (A : Type) (f : A -> R) k l, Rsum (map (fun x => f x * k) l) = Rsum (map f l) * k.
Proof. induction l as [|x l IH]; simpl; [lra|]. rewrite IH. lra. Qed.
Lemma Rsum_zero : forall (A : Type) (f : A -> R) l, (forall x, In x l -> f x = 0) -> Rsum (map f l) = 0.
Proof.
  intros A f l H. rewrite (Rsum_ext A f (fun _ => 0) l H). clear H. induction l; simpl; [reflexivity|]. rewrite IHl. lra.
Qed.
Lemma Rsum_swap : forall (A B : Type) (f : A -> B -> R) la lb,
  Rsum (map (fun a => Rsum (map (fun b => f a b) lb)) la) = Rsum (map (fun b => Rsum (map (fun a => f a b) la)) lb).
Proof.
  induction la as [|a la IH]; intros lb; simpl.
  - symmetry. apply Rsum_zero. reflexivity.
  - rewrite IH, Rsum_plus. reflexivity.
Qed.
Lemma Rsum_flat_map : forall (A B : Type) (g : A -> list B) (f : B -> R) l,
  Rsum (map f (flat_map g l)) = Rsum (map (fun a => Rsum (map f (g a))) l).
Proof. induction l as [|a l IH]; simpl; [reflexivity|]. rewrite map_app, Rsum_app, IH. reflexivity. Qed.
Lemma Rsum_delta_out : forall (f : nat -> R) a l, ~ In a l -> Rsum (map (fun j => if Nat.eqb a j then f j else 0) l) = 0.
Proof.
  intros f a l H. apply Rsum_zero. intros j Hj. destruct (Nat.eqb_spec a j) as [->|]; [contradiction|reflexivity].
Qed.
Lemma Rsum_delta_nodup : forall (f : nat -> R) a l, NoDup l -> In a l ->
  Rsum (map (fun j => if Nat.eqb a j then f j else 0) l) = f a.
Proof.
  induction l as [|x l IH]; intros N H; [destruct H|]. inversion N as [|? ? Hx N']; subst. simpl. destruct H as [->|H].
  - rewrite Nat.eqb_refl, Rsum_delta_out by exact Hx. lra.
  - rewrite IH by assumption. destruct (Nat.eqb_spec a x) as [->|]; [contradiction|]. lra.
Qed.
Lemma Rsum_delta : forall (f : nat -> R) a n, (a < n)%nat ->
  Rsum (map (fun j => if Nat.eqb a j then f j else 0) (seq 0 n)) = f a.
Proof. intros f a n H. apply Rsum_delta_nodup; [apply seq_NoDup|]. apply in_seq. lia. Qed.
Lemma Rsum_permutation : forall a b, Permutation a b -> Rsum a = Rsum b.
Proof. induction 1; simpl; lra. Qed.
Lemma map2_combine : forall (A B C : Type) (f : A -> B -> C) a b, map2 f a b = map (fun p => f (fst p) (snd p)) (combine a b).
Proof. induction a as [|x a IH]; intros [|y b]; simpl; try reflexivity. rewrite IH. reflexivity. Qed.
Lemma combine_nth_seq : forall (A : Type) (d : A) l, combine (seq 0 (length l)) l = map (fun i => (i, nth i l d)) (seq 0 (length l)).
Proof.
  intros A d l. assert (G : forall l k, combine (seq k (length l)) l = map (fun i => (i, nth (i - k) l d)) (seq k (length l))).
  { clear. induction l as [|x l IH]; intros k; simpl; [reflexivity|]. rewrite Nat.sub_diag. f_equal. rewrite IH.
    apply map_ext_in. intros i Hi. apply in_seq in Hi. destruct (i - k)%nat as [|m] eqn:E; [lia|].
    replace (i - S k)%nat with m by lia. reflexivity. }
  rewrite (G l 0%nat). apply map_ext. intros i. rewrite Nat.sub_0_r. reflexivity.
Qed.
Lemma Rsum_nth : forall l, Rsum l = Rsum (map (fun i => nth i l 0) (seq 0 (length l))).
Proof.
  intros l. f_equal. induction l as [|x l IH]; [reflexivity|]. simpl. f_equal. rewrite <- seq_shift, map_map. exact IH.
Qed.
