(** Proofs about interpolation (C14, C15, C16, C25). *)

From Coq Require Import Reals Lra Lia.
From Coquelicot Require Import Coquelicot.
From Coq Require Import List.
From Verif Require Import GridGeoModel ShapeModel ShapeSpec ShapeProofs.
Import ListNotations.
Open Scope R_scope.

Lemma nth_map_seq : forall (f : nat -> R) n s c, (c < n)%nat -> nth c (map f (seq s n)) 0 = f (s + c)%nat.
Proof.
  intros f n. induction n; intros s c Hc; [lia|].
  destruct c; simpl; [f_equal; lia|]. rewrite IHn by lia. f_equal. lia.
Qed.

Lemma nth_map_seq' : forall (f : nat -> list R) n s c, (c < n)%nat ->
  nth c (map f (seq s n)) [] = f (s + c)%nat.
Proof.
  intros f n. induction n; intros s c Hc; [lia|].
  destruct c; simpl; [f_equal; lia|]. rewrite IHn by lia. f_equal. lia.
Qed.

Lemma map2_seq : forall A B (f : A -> B -> R) (da : A) (db : B) n l m,
  length l = n -> length m = n ->
  map2 f l m = map (fun i => f (nth i l da) (nth i m db)) (seq 0 n).
Proof.
  intros A B f da db n. induction n; intros [|a l] [|b m] Hl Hm; try discriminate; [reflexivity|].
  simpl. f_equal. rewrite <- seq_shift, map_map. simpl in Hl, Hm. apply IHn; congruence.
Qed.

Lemma is_derive_Rsum : forall (s : list nat) (f : nat -> R -> R) (d : nat -> R) t,
  (forall i, In i s -> is_derive (f i) t (d i)) ->
  is_derive (fun x => Rsum (map (fun i => f i x) s)) t (Rsum (map d s)).
Proof.
  induction s; intros f d t H; simpl.
  - exact (is_derive_const 0 t).
  - apply (is_derive_plus (f a) (fun x => Rsum (map (fun i => f i x) s))).
    + apply H. left; reflexivity.
    + apply IHs. intros i Hi. apply H. right; exact Hi.
Qed.

(** ** C14 *)
Lemma length_set_coord : forall xi k t, length (set_coord xi k t) = length xi.
Proof. induction xi; intros [|k] t; simpl; try rewrite IHxi; reflexivity. Qed.

Lemma jacobian_derivative : forall d e nodes xi c k, table (NumberOfNodes e) d nodes ->
  length xi = CanonicalDimension e -> (c < d)%nat -> (k < CanonicalDimension e)%nat ->
  partial_derivative (fun x => nth c (world_coordinates d e nodes x) 0) k xi
    (nth k (nth c (jacobian d e nodes xi) []) 0).
Proof.
  intros d e nodes xi c k [Hn Hd] Hxi Hc Hk.
  unfold jacobian. rewrite nth_map_seq' by exact Hc. rewrite nth_map_seq by exact Hk. simpl plus.
  unfold partial_derivative.
  rewrite (map2_seq _ _ _ [] [] (NumberOfNodes e)) by (try apply length_dL; assumption).
  apply (is_derive_ext (fun t => Rsum (map (fun i => nth c (nth i nodes []) 0 * nth i (L e (set_coord xi k t)) 0)
                                       (seq 0 (NumberOfNodes e))))).
  - intros t. unfold world_coordinates, interpolate. rewrite nth_map_seq by exact Hc. simpl plus.
    rewrite (map2_seq _ _ _ [] 0 (NumberOfNodes e)) by (try apply length_L; assumption). reflexivity.
  - apply (is_derive_Rsum (seq 0 (NumberOfNodes e))
      (fun i t => nth c (nth i nodes []) 0 * nth i (L e (set_coord xi k t)) 0)
      (fun i => nth c (nth i nodes []) 0 * nth k (nth i (dL e xi) []) 0)).
    intros i Hi. apply in_seq in Hi.
    apply (is_derive_scal (fun t => nth i (L e (set_coord xi k t)) 0)).
    exact (shape_derivative e i k xi Hxi (proj2 Hi) Hk).
Qed.

(** ** C15 *)
Lemma dot_map_add : forall b (f g : nat -> R) s,
  dot b (map (fun c => f c + g c) s) = dot b (map f s) + dot b (map g s).
Proof.
  induction b; intros f g [|i s]; simpl; try ring. rewrite IHb. ring.
Qed.

Lemma dot_map_scal : forall b (f : nat -> R) l s,
  dot b (map (fun c => f c * l) s) = dot b (map f s) * l.
Proof.
  induction b; intros f l [|i s]; simpl; try ring. rewrite IHb. ring.
Qed.

Lemma dot_map_zero : forall b s, dot b (map (fun _ : nat => 0) s) = 0.
Proof. induction b; intros [|i s]; simpl; try reflexivity. rewrite IHb. ring. Qed.

Lemma dot_interpolated : forall d b nodes ls, length ls = length nodes ->
  Forall (fun row => length row = d) nodes ->
  dot b (map (fun c => Rsum (map2 (fun row l => nth c row 0 * l) nodes ls)) (seq 0 d)) =
  Rsum (map2 (fun row l => dot b row * l) nodes ls).
Proof.
  intros d b nodes. induction nodes as [|row nodes IH]; intros [|l ls] Hlen Hd; try discriminate; simpl.
  - apply dot_map_zero.
  - inversion Hd as [|? ? Hrow Hd']; subst.
    rewrite (dot_map_add b (fun c => nth c row 0 * l)
              (fun c => Rsum (map2 (fun row l => nth c row 0 * l) nodes ls))).
    rewrite dot_map_scal, map_nth_seq. f_equal. simpl in Hlen. apply IH; [congruence|assumption].
Qed.

Lemma Rsum_affine : forall (c : R) (b : list R) nodes ls, length ls = length nodes ->
  Rsum (map2 (fun row l => (c + dot b row) * l) nodes ls) =
  c * Rsum ls + Rsum (map2 (fun row l => dot b row * l) nodes ls).
Proof.
  intros c b nodes. induction nodes as [|row nodes IH]; intros [|l ls] H; try discriminate; simpl; [ring|].
  simpl in H. unfold Rsum in *. rewrite IH by congruence. ring.
Qed.

Lemma map2_map_l : forall A A' B C (f : A' -> B -> C) (g : A -> A') l m,
  map2 f (map g l) m = map2 (fun a b => f (g a) b) l m.
Proof. intros A A' B C f g l. induction l; intros [|b m]; simpl; try reflexivity. f_equal. apply IHl. Qed.

Lemma affine_reproduction : forall d e nodes xi c b, table (NumberOfNodes e) d nodes ->
  length xi = CanonicalDimension e -> length b = d ->
  interpolate 1 e xi (map (fun x => [affine c b x]) nodes) =
  [affine c b (world_coordinates d e nodes xi)].
Proof.
  intros d e nodes xi c b [Hn Hd] Hxi Hb.
  unfold interpolate, world_coordinates. cbn [seq map].
  rewrite map2_map_l. cbn [nth]. unfold affine.
  rewrite (Rsum_affine c b nodes (L e xi)) by (rewrite length_L; congruence).
  rewrite (partition_of_unity e xi Hxi).
  unfold interpolate.
  rewrite (dot_interpolated d b nodes (L e xi)); [|rewrite length_L; congruence|assumption].
  f_equal. ring.
Qed.

(** Decimal literals are read as the fractions they stand for. *)
Lemma half_literal : 0.5 = / 2.
Proof. lra. Qed.

(** ** C16 *)
Ltac rows A HA :=
  let HA1 := fresh in let HA2 := fresh in
  destruct HA as [HA1 HA2];
  first [ apply len1 in HA1; destruct HA1 as (?A0 & HA1)
        | apply len2 in HA1; destruct HA1 as (?A0 & ?A1 & HA1)
        | apply len3 in HA1; destruct HA1 as (?A0 & ?A1 & ?A2 & HA1) ]; subst A;
  repeat match goal with
  | H : Forall _ (_ :: _) |- _ => inversion H; clear H; subst
  | H : Forall _ [] |- _ => clear H
  end;
  repeat match goal with
  | H : length ?r = 1%nat |- _ => apply len1 in H; destruct H as (?x & H); subst r
  | H : length ?r = 2%nat |- _ => apply len2 in H; destruct H as (?x & ?y & H); subst r
  | H : length ?r = 3%nat |- _ => apply len3 in H; destruct H as (?x & ?y & ?z & H); subst r
  end.

Lemma quadratic_reproduction : forall e xi c b A, is_quadratic e = true ->
  length xi = CanonicalDimension e -> length b = CanonicalDimension e ->
  square (CanonicalDimension e) A ->
  interpolate 1 e xi (map (fun x => [quadratic c b A x]) (canonical_nodes e)) = [quadratic c b A xi].
Proof.
  intros e xi c b A Hq Hxi Hb HA.
  destruct e; try discriminate Hq; cbn [CanonicalDimension] in *; rows A HA;
    unfold interpolate, quadratic; unfold_shape; cbn [dot map];
    (apply (f_equal2 (@cons R)); [rewrite ?half_literal; field | reflexivity]).
Qed.

Lemma bilinear_reproduction : forall e a0 a1 a2 a3 u v, e = Quad_Linear \/ e = RectangularQuad_Linear ->
  let p x := a0 + a1 * nth 0 x 0 + a2 * nth 1 x 0 + a3 * nth 0 x 0 * nth 1 x 0 in
  interpolate 1 e [u; v] (map (fun x => [p x]) (canonical_nodes e)) = [p [u; v]].
Proof.
  intros e a0 a1 a2 a3 u v [-> | ->] p; unfold interpolate, p; unfold_shape;
    (apply (f_equal2 (@cons R)); [rewrite ?half_literal; field | reflexivity]).
Qed.

Lemma trilinear_reproduction : forall e a0 a1 a2 a3 a4 a5 a6 a7 u v w,
  e = Hexahedron_Linear \/ e = RectangularHexahedron_Linear ->
  let p x := let u := nth 0 x 0 in let v := nth 1 x 0 in let w := nth 2 x 0 in
    a0 + a1 * u + a2 * v + a3 * w + a4 * u * v + a5 * v * w + a6 * u * w + a7 * u * v * w in
  interpolate 1 e [u; v; w] (map (fun x => [p x]) (canonical_nodes e)) = [p [u; v; w]].
Proof.
  intros e a0 a1 a2 a3 a4 a5 a6 a7 u v w [-> | ->] p; unfold interpolate, p; unfold_shape;
    (apply (f_equal2 (@cons R)); [rewrite ?half_literal; field | reflexivity]).
Qed.

(** ** C25 *)
Lemma quadratic_of_linear_same_geometry : forall d e nodes e' nodes' xi,
  table (NumberOfNodes e) d nodes -> length xi = CanonicalDimension e ->
  quadratic_of_linear d e nodes = Some (e', nodes') ->
  table (NumberOfNodes e') d nodes' /\ CanonicalDimension e' = CanonicalDimension e /\
  world_coordinates d e' nodes' xi = world_coordinates d e nodes xi.
Proof.
  intros d e nodes e' nodes' xi [Hn Hd] Hxi H.
  assert (T : forall i, (i < length nodes)%nat -> length (nth i nodes []) = d).
  { intros i Hi. apply (proj1 (Forall_forall _ _) Hd). apply nth_In. exact Hi. }
  destruct e; try discriminate H; simpl in H; injection H as <- <-;
    (split; [split; [reflexivity|
              repeat (apply Forall_nil || apply Forall_cons);
              (apply T; rewrite Hn; simpl; lia) ||
              (unfold world_coordinates, interpolate; rewrite map_length, seq_length; reflexivity)] |
     split; [reflexivity|]]); len_xi xi Hxi;
    unfold world_coordinates, interpolate; apply map_ext_in; intros c Hc; apply in_seq in Hc;
    cbn [Quad_Quadratic_canonical_nodes Hexahedron_Quadratic_canonical_nodes nth];
    cbn [L Triangle_Quadratic_L Quad_Quadratic_L Tetrahedron_Quadratic_L Hexahedron_Quadratic_L map2 Rsum fold_right];
    rewrite !(nth_map_seq _ d 0 c) by lia; simpl plus;
    rewrite !(map2_seq _ _ _ [] 0 (NumberOfNodes _)) by (reflexivity || exact Hn);
    unfold_shape; change (0 + c)%nat with c; rewrite ?half_literal; field.
Qed.
