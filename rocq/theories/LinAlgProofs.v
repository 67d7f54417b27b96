(** Generic facts about vectors and matrices as lists. *)

From Coq Require Import Reals Lra Lia.
From Coquelicot Require Import Coquelicot.
From Coq Require Import List.
From Verif Require Import GridGeoModel ShapeModel ShapeSpec ShapeProofs ShapeFieldProofs LinAlg RectModel RectSpec RectProofs.
Import ListNotations.
Open Scope R_scope.

Lemma map2_length : forall A B C (f : A -> B -> C) l m, length l = length m -> length (map2 f l m) = length l.
Proof.
  intros A B C f l. induction l; intros [|b m] H; simpl in *; try reflexivity; try discriminate.
  f_equal. apply IHl. congruence.
Qed.

Lemma vadd_length : forall a b, length a = length b -> length (vadd a b) = length a.
Proof. intros. apply map2_length. assumption. Qed.
Lemma vminus_length : forall a b, length a = length b -> length (vminus a b) = length a.
Proof. intros. apply map2_length. assumption. Qed.
Lemma matvec_length : forall M v, length (matvec M v) = length M.
Proof. intros. apply map_length. Qed.

Lemma dot_vadd_l : forall a b x, length a = length b -> dot (vadd a b) x = dot a x + dot b x.
Proof.
  unfold vadd. induction a as [|u a IH]; intros [|v b] x H; simpl in *; try discriminate; [ring|].
  destruct x; simpl; [ring|]. rewrite IH by congruence. ring.
Qed.

Lemma dot_comm : forall a b, dot a b = dot b a.
Proof. induction a as [|u a IH]; intros [|v b]; simpl; try reflexivity. rewrite IH. ring. Qed.

Lemma dot_vadd_r : forall a b x, length a = length b -> dot x (vadd a b) = dot x a + dot x b.
Proof. intros. rewrite dot_comm, dot_vadd_l by assumption. rewrite (dot_comm a), (dot_comm b). reflexivity. Qed.

Lemma dot_vminus_r : forall a b x, length a = length b -> dot x (vminus a b) = dot x a - dot x b.
Proof.
  unfold vminus. intros a. induction a as [|u a IH]; intros [|v b] [|y x] H; simpl in *; try discriminate; try ring.
  rewrite IH by congruence. ring.
Qed.

Lemma matvec_vadd : forall M a b, length a = length b -> matvec M (vadd a b) = vadd (matvec M a) (matvec M b).
Proof.
  intros M a b H. unfold matvec, vadd. induction M as [|row M IH]; simpl; [reflexivity|].
  f_equal; [|exact IH]. rewrite !vdot_dot. apply dot_vadd_r. exact H.
Qed.

Lemma matvec_vminus : forall M a b, length a = length b -> matvec M (vminus a b) = vminus (matvec M a) (matvec M b).
Proof.
  intros M a b H. unfold matvec, vminus. induction M as [|row M IH]; simpl; [reflexivity|].
  f_equal; [|exact IH]. rewrite !vdot_dot. apply dot_vminus_r. exact H.
Qed.

Lemma vminus_cancel : forall c a b, length a = length c -> length b = length c ->
  vminus (vadd c a) (vadd c b) = vminus a b.
Proof.
  unfold vminus, vadd. induction c as [|w c IH]; intros [|u a] [|v b] Ha Hb; simpl in *; try discriminate; [reflexivity|].
  f_equal; [ring|]. apply IH; congruence.
Qed.

Lemma vadd_vminus : forall a b, length a = length b -> vadd a (vminus b a) = b.
Proof.
  unfold vadd, vminus. induction a as [|u a IH]; intros [|v b] H; simpl in *; try discriminate; [reflexivity|].
  f_equal; [ring|]. apply IH. congruence.
Qed.

Lemma vminus_self : forall a, vminus a a = repeat 0 (length a).
Proof. unfold vminus. induction a; simpl; [reflexivity|]. f_equal; [ring|assumption]. Qed.

Lemma vadd_zero : forall a n, length a = n -> vadd a (repeat 0 n) = a.
Proof.
  unfold vadd. intros a n <-. induction a; simpl; [reflexivity|]. f_equal; [ring|assumption].
Qed.

Lemma vminus_chain : forall a b c, length a = length b -> length b = length c ->
  vminus a c = vadd (vminus a b) (vminus b c).
Proof.
  unfold vminus, vadd. intros a. induction a as [|u a IH]; intros [|v b] [|w c] H1 H2; simpl in *; try discriminate; [reflexivity|].
  f_equal; [ring|]. apply IH; congruence.
Qed.

(** Adjoint: a . (M v) = (M^T a) . v *)
Lemma dot_nil_r : forall a, dot a [] = 0.
Proof. destruct a; reflexivity. Qed.

Lemma dot_map_seq_scal : forall k (f : nat -> R) s v,
  dot (map (fun j => s * f j) (seq 0 k)) v = s * dot (map f (seq 0 k)) v.
Proof.
  intros k f s v. generalize (seq 0 k). intros l. revert v. induction l; intros [|y v]; simpl; try ring.
  rewrite IHl. ring.
Qed.

Lemma dot_map_seq_add : forall k (f g : nat -> R) v,
  dot (map (fun j => f j + g j) (seq 0 k)) v = dot (map f (seq 0 k)) v + dot (map g (seq 0 k)) v.
Proof.
  intros k f g v. generalize (seq 0 k). intros l. revert v. induction l; intros [|y v]; simpl; try ring.
  rewrite IHl. ring.
Qed.

Lemma dot_adjoint : forall k M a v, Forall (fun row => length row = k) M -> length a = length M ->
  dot a (matvec M v) = dot (matvec (transpose k M) a) v.
Proof.
  intros k M. induction M as [|row M IH]; intros a v HM Ha.
  - destruct a; [|discriminate]. unfold matvec, transpose. rewrite map_map. simpl.
    generalize (seq 0 k). intros l. revert v. induction l; intros [|y v]; simpl; try reflexivity.
    rewrite <- IHl. unfold vdot. simpl. ring.
  - destruct a as [|x a]; [discriminate|]. inversion HM as [|? ? Hr HM']; subst.
    cbn [matvec map]. change (map (fun row => vdot row v) M) with (matvec M v). cbn [dot].
    rewrite (IH a v HM') by (simpl in Ha; congruence).
    unfold matvec, transpose. rewrite !map_map.
    rewrite (map_ext (fun j => vdot (column (row :: M) j) (x :: a))
                     (fun j => x * nth j row 0 + vdot (column M j) a))
      by (intros j; unfold column, vdot, Rsum; simpl; ring).
    rewrite dot_map_seq_add, dot_map_seq_scal, map_nth_seq, vdot_dot. reflexivity.
Qed.

Lemma squaredNorm_nonneg : forall a, 0 <= squaredNorm a.
Proof.
  intros a. unfold squaredNorm. rewrite vdot_dot. induction a; simpl; [lra|]. nra.
Qed.

Lemma squaredNorm_vadd : forall a b, length a = length b ->
  squaredNorm (vadd a b) = squaredNorm a + 2 * dot a b + squaredNorm b.
Proof.
  intros a b H. unfold squaredNorm. rewrite !vdot_dot, dot_vadd_l, !dot_vadd_r by assumption.
  rewrite (dot_comm b a). ring.
Qed.

Lemma squaredNorm_zero : forall a, squaredNorm a = 0 -> a = repeat 0 (length a).
Proof.
  intros a. unfold squaredNorm. rewrite vdot_dot. induction a as [|x a IH]; simpl; intros H; [reflexivity|].
  assert (0 <= dot a a) by (rewrite <- vdot_dot; apply squaredNorm_nonneg).
  assert (x = 0) by nra. subst. f_equal. apply IH. lra.
Qed.

(** Inverses of matrices of size 1, 2, 3 *)
Lemma inverse_matvec : forall n M v, (1 <= n <= 3)%nat -> square n M -> length v = n -> det M <> 0 ->
  matvec (inverse M) (matvec M v) = v.
Proof.
  intros n M v Hn HM Hv HD.
  assert (n = 1 \/ n = 2 \/ n = 3)%nat as [-> | [-> | ->]] by lia; rows M HM; unfold det in HD;
    unfold inverse, det; vec_unfold; entries; exact HD.
Qed.

Lemma gram_is_product : forall k E, matmul k (transpose k E) E = gram k E.
Proof.
  intros k E. unfold matmul, gram, transpose. rewrite map_map. apply map_ext. intros i. apply map_ext. intros j.
  apply vdot_dot.
Qed.

Lemma gram_square : forall k E, square k (gram k E).
Proof.
  intros k E. split; [unfold gram; rewrite map_length, seq_length; reflexivity|].
  apply Forall_forall. intros row H. unfold gram in H. apply in_map_iff in H. destruct H as (i & <- & _).
  rewrite map_length, seq_length. reflexivity.
Qed.

Lemma gram_matvec : forall k E v, Forall (fun row => length row = k) E -> length v = k ->
  matvec (gram k E) v = matvec (transpose k E) (matvec E v).
Proof.
  intros k E v HE Hv. unfold gram, transpose, matvec at 1 2. rewrite !map_map. apply map_ext. intros i.
  rewrite !vdot_dot, (dot_adjoint k) by (assumption || (unfold column; apply map_length)).
  unfold matvec, transpose. rewrite map_map. f_equal. apply map_ext. intros j. rewrite vdot_dot. apply dot_comm.
Qed.

Lemma gram_det_square : forall k E, (1 <= k <= 3)%nat -> square k E -> det (gram k E) = det E * det E.
Proof.
  intros k E Hk HE.
  assert (k = 1 \/ k = 2 \/ k = 3)%nat as [-> | [-> | ->]] by lia; rows E HE; unfold gram, det, column;
    cbn [map seq nth dot]; ring.
Qed.
