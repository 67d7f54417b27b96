(** Linear tetrahedra: motions without strain are rigid (C93). *)

From Coq Require Import ZArith Reals Lra Lia.
From Coquelicot Require Import Coquelicot.
From Coq Require Import List Arith Bool.
From Verif Require Import GridGeoModel ShapeModel ShapeSpec ShapeProofs ShapeGaussProofs LinAlg LinAlgProofs BarycentricModel MappingSpec MappingProofs TensorModel TensorSpec
  MaterialModel MaterialSpec MaterialProofs MaterialProperties SparseModel SparseProofs Sums HyperModel HyperSpec HyperProofs HyperProofs2 HyperProofs3 HyperProofs4 HyperProperties
  SpectrumProofs StabilitySpec StabilityProofs StabilityProofs2.
Import ListNotations.
Open Scope R_scope.

(** ** Rigid motions as functions *)
Definition motion (t w : nat -> R) (x : nat -> R) (i : nat) : R :=
  match i with O => t 0%nat + (w 1%nat * x 2%nat - w 2%nat * x 1%nat) | 1%nat => t 1%nat + (w 2%nat * x 0%nat - w 0%nat * x 2%nat) | _ => t 2%nat + (w 0%nat * x 1%nat - w 1%nat * x 0%nat) end.
Definition moves (t w : nat -> R) (x v : nat -> R) : Prop := forall i, (i < 3)%nat -> v i = motion t w x i.

Lemma no_spin u v w o : (u 0%nat * (v 1%nat * w 2%nat - v 2%nat * w 1%nat) - u 1%nat * (v 0%nat * w 2%nat - v 2%nat * w 0%nat) + u 2%nat * (v 0%nat * w 1%nat - v 1%nat * w 0%nat) : R) <> 0 ->
  (forall i, (i < 3)%nat -> motion (fun _ => 0) o u i = 0) -> (forall i, (i < 3)%nat -> motion (fun _ => 0) o v i = 0) -> forall i, (i < 3)%nat -> o i = 0.
Proof.
  intros D U V i Hi.
  pose proof (U 0%nat ltac:(lia)) as U0. pose proof (U 1%nat ltac:(lia)) as U1. pose proof (U 2%nat ltac:(lia)) as U2.
  pose proof (V 0%nat ltac:(lia)) as V0. pose proof (V 1%nat ltac:(lia)) as V1. pose proof (V 2%nat ltac:(lia)) as V2. unfold motion in *.
  set (dd := u 0%nat * _ - _ + _) in D.
  (* o det(u,v,w) = u (o x v . w) - v (o x u . w) + w (o x u . v) *)
  assert (E : o i * dd = u i * ((o 1%nat * v 2%nat - o 2%nat * v 1%nat) * w 0%nat + (o 2%nat * v 0%nat - o 0%nat * v 2%nat) * w 1%nat + (o 0%nat * v 1%nat - o 1%nat * v 0%nat) * w 2%nat)
    - v i * ((o 1%nat * u 2%nat - o 2%nat * u 1%nat) * w 0%nat + (o 2%nat * u 0%nat - o 0%nat * u 2%nat) * w 1%nat + (o 0%nat * u 1%nat - o 1%nat * u 0%nat) * w 2%nat)
    + w i * ((o 1%nat * u 2%nat - o 2%nat * u 1%nat) * v 0%nat + (o 2%nat * u 0%nat - o 0%nat * u 2%nat) * v 1%nat + (o 0%nat * u 1%nat - o 1%nat * u 0%nat) * v 2%nat)).
  { unfold dd. destruct i as [|[|[|]]]; try lia; ring. }
  replace (o 1%nat * v 2%nat - o 2%nat * v 1%nat) with 0 in E by lra. replace (o 2%nat * v 0%nat - o 0%nat * v 2%nat) with 0 in E by lra.
  replace (o 0%nat * v 1%nat - o 1%nat * v 0%nat) with 0 in E by lra. replace (o 1%nat * u 2%nat - o 2%nat * u 1%nat) with 0 in E by lra.
  replace (o 2%nat * u 0%nat - o 0%nat * u 2%nat) with 0 in E by lra. replace (o 0%nat * u 1%nat - o 1%nat * u 0%nat) with 0 in E by lra.
  assert (Z : o i * dd = 0) by lra. apply Rmult_integral in Z. destruct Z as [Z|Z]; [exact Z|contradiction].
Qed.

(** Two rigid motions that agree on three points which are not aligned are equal. *)
Lemma same_motion t1 w1 t2 w2 a b c va vb vc (X : (b 1%nat - a 1%nat) * (c 2%nat - a 2%nat) - (b 2%nat - a 2%nat) * (c 1%nat - a 1%nat) <> 0 \/
    (b 2%nat - a 2%nat) * (c 0%nat - a 0%nat) - (b 0%nat - a 0%nat) * (c 2%nat - a 2%nat) <> 0 \/ (b 0%nat - a 0%nat) * (c 1%nat - a 1%nat) - (b 1%nat - a 1%nat) * (c 0%nat - a 0%nat) <> 0) :
  moves t1 w1 a va -> moves t2 w2 a va -> moves t1 w1 b vb -> moves t2 w2 b vb -> moves t1 w1 c vc -> moves t2 w2 c vc ->
  (forall i, (i < 3)%nat -> w1 i = w2 i) /\ (forall i, (i < 3)%nat -> t1 i = t2 i).
Proof.
  intros A1 A2 B1 B2 C1 C2. set (u := fun i => b i - a i). set (v := fun i => c i - a i). set (o := fun i => w1 i - w2 i).
  assert (Eq : forall i, (i < 3)%nat -> motion t1 w1 a i = motion t2 w2 a i /\ motion t1 w1 b i = motion t2 w2 b i /\ motion t1 w1 c i = motion t2 w2 c i).
  { intros i Hi. rewrite <- (A1 i Hi), <- (A2 i Hi), <- (B1 i Hi), <- (B2 i Hi), <- (C1 i Hi), <- (C2 i Hi). auto. }
  pose proof (Eq 0%nat ltac:(lia)) as (A0 & B0 & C0). pose proof (Eq 1%nat ltac:(lia)) as (A1' & B1' & C1'). pose proof (Eq 2%nat ltac:(lia)) as (A2' & B2' & C2').
  assert (W : forall i, (i < 3)%nat -> o i = 0).
  { set (n := fun i : nat => match i with O => u 1%nat * v 2%nat - u 2%nat * v 1%nat | 1%nat => u 2%nat * v 0%nat - u 0%nat * v 2%nat | _ => u 0%nat * v 1%nat - u 1%nat * v 0%nat end).
    apply (no_spin u v n o).
    - replace (_ + _) with (n 0%nat * n 0%nat + n 1%nat * n 1%nat + n 2%nat * n 2%nat) by (unfold n; ring).
      fold (u 0%nat) (u 1%nat) (u 2%nat) in X. assert (N : n 0%nat <> 0 \/ n 1%nat <> 0 \/ n 2%nat <> 0) by exact X.
      destruct N as [N|[N|N]]; pose proof (Rsqr_pos_lt _ N); pose proof (Rle_0_sqr (n 0%nat)); pose proof (Rle_0_sqr (n 1%nat)); pose proof (Rle_0_sqr (n 2%nat)); unfold Rsqr in *; lra.
    - intros i Hi. unfold motion, o, u in *. destruct i as [|[|[|]]]; try lia; lra.
    - intros i Hi. unfold motion, o, v in *. destruct i as [|[|[|]]]; try lia; lra. }
  assert (W' : forall i, (i < 3)%nat -> w1 i = w2 i) by (intros i Hi; specialize (W i Hi); unfold o in W; lra).
  split; [exact W'|]. unfold motion in *. rewrite !W' in A0, A1', A2' by lia. intros i Hi. destruct i as [|[|[|]]]; try lia; lra.
Qed.

(** ** One tetrahedron *)
Lemma product_inverse A B i j : matrix3 B -> det B <> 0 -> (i < 3)%nat -> (j < 3)%nat ->
  sum3 (fun l => entries (product A (inverse B)) i l * entries B l j) = entries A i j.
Proof.
  intros MB N Hi Hj. unfold product. unfold sum3 at 1. rewrite !entries_of_entries by lia. rewrite (inverse_entries _ MB).
  rewrite (det_entries _ MB) in N. unfold sum3. rewrite !entries_of_entries by lia. revert N. generalize (entries B) (entries A i). intros f a N.
  unfold adj. unfold det3 in *. destruct j as [|[|[|]]]; try lia; field; exact N.
Qed.
Lemma strain_zero G i j : strain G = of_entries (fun _ _ => 0) -> (i < 3)%nat -> (j < 3)%nat -> entries G i j + entries G j i = 0.
Proof.
  intros H Hi Hj. pose proof (f_equal (fun M => entries M i j) H) as E. cbv beta in E. unfold strain in E. rewrite !entries_of_entries in E by assumption. lra.
Qed.

Section Tetrahedra.
Context (d : domain).
Hypothesis Sd : solid d.
Hypothesis RG : regular d.
Hypothesis HT : kind d = Tetrahedron_Linear.
Let X := entries (positions d).

Lemma tetra_row row : In row (connectivity d) -> exists a b c e, row = [a; b; c; e].
Proof.
  intros Hr. destruct (solid_row d row Sd Hr) as [Hl _]. rewrite HT in Hl. destruct row as [|a [|b [|c [|e [|]]]]]; try discriminate. exists a, b, c, e. reflexivity.
Qed.
Lemma tetra_jacobian x a b c e xi i j : (i < 3)%nat -> (j < 3)%nat ->
  entries (jacobian 3 Tetrahedron_Linear (gather x [a; b; c; e]) xi) i j = entries x (nth j [b; c; e] 0%nat) i - entries x a i.
Proof.
  intros Hi Hj. unfold jacobian, gather. cbn [CanonicalDimension map seq dL Tetrahedron_Linear_dL map2 Rsum fold_right]. unfold entries, Tetrahedron_Linear_dL.
  destruct i as [|[|[|]]], j as [|[|[|]]]; try lia; cbn [nth map2 Rsum fold_right]; ring.
Qed.
Lemma tetra_volume row : In row (connectivity d) -> forall xi, In xi (gauss_nodes (kind d)) -> det (jacobian 3 (kind d) (gather (positions d) row) (fst xi)) <> 0.
Proof. intros Hr xi Hxi. exact (proj1 (Forall_forall _ _) (proj1 (Forall_forall _ _) RG row Hr) xi Hxi). Qed.
Lemma tetra_gauss : exists q, In q (gauss_nodes (kind d)).
Proof. rewrite HT. eexists. left. reflexivity. Qed.

(** Three distinct nodes of a tetrahedron are not aligned. *)
Definition cross_nonzero (a b c : nat -> R) : Prop :=
  (b 1%nat - a 1%nat) * (c 2%nat - a 2%nat) - (b 2%nat - a 2%nat) * (c 1%nat - a 1%nat) <> 0 \/
  (b 2%nat - a 2%nat) * (c 0%nat - a 0%nat) - (b 0%nat - a 0%nat) * (c 2%nat - a 2%nat) <> 0 \/
  (b 0%nat - a 0%nat) * (c 1%nat - a 1%nat) - (b 1%nat - a 1%nat) * (c 0%nat - a 0%nat) <> 0.
Definition volume4 (a b c e : nat -> R) : R :=
  (b 0%nat - a 0%nat) * ((c 1%nat - a 1%nat) * (e 2%nat - a 2%nat) - (c 2%nat - a 2%nat) * (e 1%nat - a 1%nat)) -
  (b 1%nat - a 1%nat) * ((c 0%nat - a 0%nat) * (e 2%nat - a 2%nat) - (c 2%nat - a 2%nat) * (e 0%nat - a 0%nat)) +
  (b 2%nat - a 2%nat) * ((c 0%nat - a 0%nat) * (e 1%nat - a 1%nat) - (c 1%nat - a 1%nat) * (e 0%nat - a 0%nat)).
Lemma cross_of_volume a b c e : volume4 a b c e <> 0 -> cross_nonzero a b c.
Proof.
  intros N. unfold cross_nonzero.
  destruct (Req_dec ((b 1%nat - a 1%nat) * (c 2%nat - a 2%nat) - (b 2%nat - a 2%nat) * (c 1%nat - a 1%nat)) 0) as [Z0|Z0]; [|left; exact Z0].
  destruct (Req_dec ((b 2%nat - a 2%nat) * (c 0%nat - a 0%nat) - (b 0%nat - a 0%nat) * (c 2%nat - a 2%nat)) 0) as [Z1|Z1]; [|right; left; exact Z1].
  right. right. intros Z2. apply N.
  transitivity ((e 0%nat - a 0%nat) * ((b 1%nat - a 1%nat) * (c 2%nat - a 2%nat) - (b 2%nat - a 2%nat) * (c 1%nat - a 1%nat)) +
    (e 1%nat - a 1%nat) * ((b 2%nat - a 2%nat) * (c 0%nat - a 0%nat) - (b 0%nat - a 0%nat) * (c 2%nat - a 2%nat)) +
    (e 2%nat - a 2%nat) * ((b 0%nat - a 0%nat) * (c 1%nat - a 1%nat) - (b 1%nat - a 1%nat) * (c 0%nat - a 0%nat))).
  - unfold volume4. ring.
  - rewrite Z0, Z1, Z2. ring.
Qed.
Lemma volume_swaps a b c e : volume4 a b e c = - volume4 a b c e /\ volume4 a c b e = - volume4 a b c e /\ volume4 b a c e = - volume4 a b c e.
Proof. unfold volume4. repeat split; ring. Qed.

Lemma face_not_aligned row a b c : In row (connectivity d) -> NoDup [a; b; c] -> incl [a; b; c] row -> cross_nonzero (X a) (X b) (X c).
Proof.
  intros Hr N I. destruct (tetra_row row Hr) as (p & q & r & s & ->). destruct tetra_gauss as [g Hg]. pose proof (tetra_volume _ Hr g Hg) as NZ.
  assert (MJ : matrix3 (jacobian 3 (kind d) (gather (positions d) [p; q; r; s]) (fst g))).
  { rewrite (jacobian_entries d [p; q; r; s] g); [apply of_entries_matrix3|apply Sd|rewrite HT; reflexivity]. }
  rewrite (det_entries _ MJ) in NZ. unfold det3 in NZ. rewrite HT in NZ. rewrite !tetra_jacobian in NZ by lia. cbn [nth] in NZ. fold X in NZ.
  assert (W : volume4 (X p) (X q) (X r) (X s) <> 0) by (intros Z; apply NZ; rewrite <- Z; unfold volume4, X; ring). clear NZ MJ.
  apply NoDup_cons_iff in N. destruct N as [N1 N2]. apply NoDup_cons_iff in N2. destruct N2 as [N2 _]. cbn [In] in N1, N2.
  assert (Ia := I a (or_introl eq_refl)). assert (Ib := I b (or_intror (or_introl eq_refl))). assert (Ic := I c (or_intror (or_intror (or_introl eq_refl)))).
  assert (Q : forall w, (w = volume4 (X p) (X q) (X r) (X s) \/ w = - volume4 (X p) (X q) (X r) (X s)) -> w <> 0) by (intros w [-> | ->]; lra).
  cbn [In] in Ia, Ib, Ic.
  destruct Ia as [<-|[<-|[<-|[<-|[]]]]]; destruct Ib as [<-|[<-|[<-|[<-|[]]]]]; try (exfalso; tauto);
  destruct Ic as [<-|[<-|[<-|[<-|[]]]]]; try (exfalso; tauto);
  match goal with |- cross_nonzero (X ?a) (X ?b) (X ?c) =>
    first [ apply (cross_of_volume (X a) (X b) (X c) (X p)); apply Q; first [left; unfold volume4; ring | right; unfold volume4; ring]
          | apply (cross_of_volume (X a) (X b) (X c) (X q)); apply Q; first [left; unfold volume4; ring | right; unfold volume4; ring]
          | apply (cross_of_volume (X a) (X b) (X c) (X r)); apply Q; first [left; unfold volume4; ring | right; unfold volume4; ring]
          | apply (cross_of_volume (X a) (X b) (X c) (X s)); apply Q; first [left; unfold volume4; ring | right; unfold volume4; ring] ]
  end.
Qed.

End Tetrahedra.
