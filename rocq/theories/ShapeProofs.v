(** Proofs about the shape functions (C11-C16, C25). *)

From Coq Require Import Reals Lra Lia.
From Coquelicot Require Import Coquelicot.
From Coq Require Import List.
From Verif Require Import GridGeoModel ShapeModel ShapeSpec.
Import ListNotations.
Open Scope R_scope.

Lemma len1 : forall A (l : list A), length l = 1%nat -> exists a, l = [a].
Proof. intros A [|a [|]]; try discriminate. exists a; reflexivity. Qed.
Lemma len2 : forall A (l : list A), length l = 2%nat -> exists a b, l = [a; b].
Proof. intros A [|a [|b [|]]]; try discriminate. exists a, b; reflexivity. Qed.
Lemma len3 : forall A (l : list A), length l = 3%nat -> exists a b c, l = [a; b; c].
Proof. intros A [|a [|b [|c [|]]]]; try discriminate. exists a, b, c; reflexivity. Qed.

Ltac len_xi xi H :=
  cbn [CanonicalDimension] in H;
  first [ apply len1 in H; destruct H as (?u & H)
        | apply len2 in H; destruct H as (?u & ?v & H)
        | apply len3 in H; destruct H as (?u & ?v & ?w & H) ];
  subst xi.

(** Case analysis on a bounded natural number. *)
Ltac cases_lt k Hk tac :=
  first [ exfalso; lia | destruct k as [|k]; [ tac | cases_lt k Hk tac ] ].

Ltac unfold_shape :=
  cbn [L dL
    Segment_Linear_L Segment_Linear_dL Segment_Quadratic_L Segment_Quadratic_dL
    Triangle_Linear_L Triangle_Linear_dL Triangle_Quadratic_L Triangle_Quadratic_dL
    Quad_Linear_L Quad_Linear_dL Quad_Quadratic_L Quad_Quadratic_dL
    RectangularQuad_Linear_L RectangularQuad_Linear_dL RectangularQuad_Quadratic_L RectangularQuad_Quadratic_dL
    Tetrahedron_Linear_L Tetrahedron_Linear_dL Tetrahedron_Quadratic_L Tetrahedron_Quadratic_dL
    Hexahedron_Linear_L Hexahedron_Linear_dL Hexahedron_Quadratic_L Hexahedron_Quadratic_dL
    RectangularHexahedron_Linear_L RectangularHexahedron_Linear_dL
    RectangularHexahedron_Quadratic_L RectangularHexahedron_Quadratic_dL
    nth map fold_right map2 Rsum CanonicalDimension canonical_nodes NumberOfNodes
    Quad_Linear_canonical_nodes Quad_Quadratic_canonical_nodes
    Hexahedron_Linear_canonical_nodes Hexahedron_Quadratic_canonical_nodes length set_coord seq].

Lemma length_L : forall e xi, length (L e xi) = NumberOfNodes e.
Proof. intros []; reflexivity. Qed.

Lemma length_dL : forall e xi, length (dL e xi) = NumberOfNodes e.
Proof. intros []; reflexivity. Qed.

Lemma length_dL_row : forall e xi i, (i < NumberOfNodes e)%nat ->
  length (nth i (dL e xi) []) = CanonicalDimension e.
Proof.
  intros e xi i. destruct e; simpl; intros Hi;
    cases_lt i Hi ltac:(reflexivity).
Qed.

Lemma length_canonical_nodes : forall e, table (NumberOfNodes e) (CanonicalDimension e) (canonical_nodes e).
Proof. intros []; split; simpl; repeat constructor. Qed.

(** ** C11 *)
Lemma partition_of_unity : forall e xi, length xi = CanonicalDimension e ->
  Rsum (L e xi) = 1.
Proof. intros e xi H. destruct e; len_xi xi H; unfold_shape; field. Qed.

Lemma derivatives_sum_to_zero : forall e xi k, length xi = CanonicalDimension e ->
  (k < CanonicalDimension e)%nat ->
  Rsum (map (fun row => nth k row 0) (dL e xi)) = 0.
Proof.
  intros e xi k H Hk. destruct e; len_xi xi H; simpl in Hk;
    cases_lt k Hk ltac:(unfold_shape; field).
Qed.

(** ** C12 *)
Lemma kronecker : forall e i j, (i < NumberOfNodes e)%nat -> (j < NumberOfNodes e)%nat ->
  nth i (L e (nth j (canonical_nodes e) [])) 0 = if Nat.eq_dec i j then 1 else 0.
Proof.
  assert (K : forall e, Forall (fun j => map2 (fun i l => (i, l)) (seq 0 (NumberOfNodes e))
              (L e (nth j (canonical_nodes e) [])) =
            map (fun i => (i, if Nat.eq_dec i j then 1 else 0)) (seq 0 (NumberOfNodes e))) (seq 0 (NumberOfNodes e))).
  { intros e. destruct e; unfold_shape; repeat constructor; unfold_shape;
    repeat (apply (f_equal2 (@cons (nat * R))); [apply (f_equal2 (@pair nat R)); [reflexivity|simpl; lra]|]);
    reflexivity. }
  intros e i j Hi Hj.
  pose proof (proj1 (Forall_forall _ _) (K e) j (proj2 (in_seq (NumberOfNodes e) 0 j) (conj (Nat.le_0_l j) Hj))) as E.
  simpl in E.
  assert (G : forall n (l : list R) (f : nat -> R) s, length l = n ->
     map2 (fun i l => (i, l)) (seq s n) l = map (fun i => (i, f i)) (seq s n) ->
     forall i, (i < n)%nat -> nth i l 0 = f (s + i)%nat).
  { clear. induction n; intros l f s Hl E i Hi; [lia|].
    destruct l as [|x l]; [discriminate|]. simpl in E. injection E as E0 E.
    destruct i; simpl; [rewrite Nat.add_0_r; assumption|].
    rewrite (IHn l f (S s)); [f_equal; lia| simpl in Hl; lia| exact E| lia]. }
  exact (G _ _ (fun i => if Nat.eq_dec i j then 1 else 0) 0%nat (length_L e _) E i Hi).
Qed.

(** Sums with one non-zero term. *)
Lemma Rsum_single : forall (ls : list R) (vs : list (list R)) c j,
  length ls = length vs -> (j < length ls)%nat ->
  (forall i, (i < length ls)%nat -> nth i ls 0 = if Nat.eq_dec i j then 1 else 0) ->
  Rsum (map2 (fun row l => nth c row 0 * l) vs ls) = nth c (nth j vs []) 0.
Proof.
  assert (Z : forall (ls : list R) (vs : list (list R)) c, length ls = length vs ->
     (forall i, (i < length ls)%nat -> nth i ls 0 = 0) ->
     Rsum (map2 (fun row l => nth c row 0 * l) vs ls) = 0).
  { induction ls as [|x ls IH]; intros [|v vs] c Hlen H; try discriminate; [reflexivity|].
    simpl. fold (Rsum (map2 (fun row l => nth c row 0 * l) vs ls)).
    rewrite IH; [|now injection Hlen|].
    - pose proof (H 0%nat ltac:(simpl; lia)) as E. simpl in E. rewrite E. ring.
    - intros i Hi. apply (H (S i)). simpl. lia. }
  induction ls as [|x ls IH]; intros [|v vs] c j Hlen Hj H; try discriminate; [simpl in Hj; lia|].
  simpl. fold (Rsum (map2 (fun row l => nth c row 0 * l) vs ls)).
  pose proof (H 0%nat ltac:(simpl; lia)) as E0. simpl in E0.
  destruct j.
  - rewrite Z; [|now injection Hlen|].
    + rewrite E0. simpl. ring.
    + intros i Hi. exact (H (S i) ltac:(simpl; lia)).
  - rewrite (IH vs c j); [|now injection Hlen|simpl in Hj; lia|].
    + rewrite E0. simpl. ring.
    + intros i Hi. pose proof (H (S i) ltac:(simpl; lia)) as E. cbn [nth] in E. rewrite E.
      destruct (Nat.eq_dec (S i) (S j)), (Nat.eq_dec i j); try congruence; reflexivity.
Qed.

Lemma map_nth_seq : forall (l : list R), map (fun c => nth c l 0) (seq 0 (length l)) = l.
Proof.
  induction l; [reflexivity|]. simpl. f_equal. rewrite <- seq_shift, map_map. exact IHl.
Qed.

Lemma world_at_node : forall e d nodes j, table (NumberOfNodes e) d nodes -> (j < NumberOfNodes e)%nat ->
  world_coordinates d e nodes (nth j (canonical_nodes e) []) = nth j nodes [].
Proof.
  intros e d nodes j [Hn Hd] Hj.
  unfold world_coordinates, interpolate.
  rewrite <- (map_nth_seq (nth j nodes [])) at 1.
  assert (E : length (nth j nodes []) = d).
  { apply (proj1 (Forall_forall _ _) Hd). apply nth_In. lia. }
  rewrite E. apply map_ext. intros c.
  apply Rsum_single.
  - rewrite length_L. congruence.
  - rewrite length_L. exact Hj.
  - intros i Hi. rewrite length_L in Hi. apply kronecker; assumption.
Qed.

(** ** C13 *)
Ltac der := unfold partial_derivative; unfold_shape; auto_derive; [exact I|try field].

Lemma shape_derivative : forall e i k xi, length xi = CanonicalDimension e ->
  (i < NumberOfNodes e)%nat -> (k < CanonicalDimension e)%nat ->
  partial_derivative (fun x => nth i (L e x) 0) k xi (nth k (nth i (dL e xi) []) 0).
Proof.
  intros e i k xi H Hi Hk.
  destruct e; len_xi xi H; simpl in Hk, Hi;
    cases_lt k Hk ltac:(cases_lt i Hi ltac:(der)).
Qed.
