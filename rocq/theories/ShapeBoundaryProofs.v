(** Proofs about the face and edge tables (C26). *)

From Coq Require Import Reals Lra Lia.
From Coquelicot Require Import Coquelicot.
From Coq Require Import List.
From Verif Require Import GridGeoModel ShapeModel ShapeSpec ShapeProofs ShapeFieldProofs.
Import ListNotations.
Open Scope R_scope.

Lemma face_count : forall e, length (boundary_elements_node_indices e) = NumberOfBoundaryElements e.
Proof. intros []; reflexivity. Qed.

Lemma face_size : forall e be face, BoundaryElementType e = Some be ->
  In face (boundary_elements_node_indices e) ->
  length face = NumberOfNodes be /\ NoDup face /\ Forall (fun i => (i < NumberOfNodes e)%nat) face.
Proof.
  intros e be face Hb H.
  destruct e; (discriminate Hb || injection Hb as <-); cbn [boundary_elements_node_indices In] in H;
    repeat destruct H as [<-|H]; try contradiction;
    (split; [reflexivity|]);
    (split; [repeat (apply NoDup_cons || apply NoDup_nil); cbn [In]; intuition congruence
            | repeat (apply Forall_cons || apply Forall_nil); cbn [NumberOfNodes]; lia]).
Qed.

Ltac on_side := 
  first [ (split; [intros _; cbn; lra | intros _; cbn; tauto])
        | (split; [intros H; exfalso; cbn in H; intuition congruence | intros H; exfalso; cbn in H; lra]) ].

Lemma face_is_side : forall e k i, e <> RectangularHexahedron_Quadratic ->
  (k < NumberOfBoundaryElements e)%nat -> (i < NumberOfNodes e)%nat ->
  (In i (nth k (boundary_elements_node_indices e) []) <->
   nth k (sides e) (fun _ => 1) (nth i (canonical_nodes e) []) = 0).
Proof.
  intros e k i He Hk Hi. destruct e; try congruence; cbn [NumberOfBoundaryElements NumberOfNodes] in Hk, Hi;
    try (exfalso; lia);
    cases_lt k Hk ltac:(cases_lt i Hi ltac:(on_side)).
Qed.

Lemma sides_bound_domain : forall e xi, sides e <> [] -> length xi = CanonicalDimension e ->
  (in_reference e 0 xi <-> Forall (fun s => 0 <= s xi) (sides e)).
Proof.
  intros e xi Hs Hxi. unfold in_reference.
  destruct e; try (cbn in Hs; congruence); len_xi xi Hxi; cbn [simplex sides length CanonicalDimension nth];
    split; intros H;
    repeat match goal with
    | H : _ /\ _ |- _ => destruct H
    | H : Forall _ _ |- _ => inversion H; clear H; subst
    end; cbn [Rsum fold_right] in *;
    try (split; [reflexivity|]); try (split; [|cbn [nth] in *; lra]); repeat (apply Forall_cons || apply Forall_nil); cbn [nth] in *; lra.
Qed.

Lemma faces_outward : forall e k xi, e <> RectangularHexahedron_Quadratic ->
  (k < NumberOfBoundaryElements e)%nat -> in_open_reference e 0 xi ->
  let points := pick (canonical_nodes e) (nth k (boundary_elements_node_indices e) []) in
  dot (face_normal points) (vsub xi (nth 0 points [])) < 0.
Proof.
  intros e k xi He Hk [Hxi H].
  destruct e; try congruence; cbn [NumberOfBoundaryElements] in Hk; try (exfalso; lia); len_xi xi Hxi;
    cbn [simplex] in H;
    repeat match goal with
    | H : _ /\ _ |- _ => destruct H
    | H : Forall _ _ |- _ => inversion H; clear H; subst
    end; cbn [Rsum fold_right] in *;
    cases_lt k Hk ltac:(cbn; lra).
Qed.

(** Traces: the coordinates of the point of the face are simplified before the shape functions are expanded. *)
Ltac simplify_to t u v :=
  let by_field := (rewrite ?half_literal; field) in
  first [ replace t with (-1) by by_field | replace t with 0 by by_field | replace t with 1 by by_field
        | replace t with u by by_field | replace t with v by by_field
        | replace t with (-u) by by_field | replace t with (-v) by by_field
        | replace t with (1-u-v) by by_field | replace t with ((1+u)/2) by by_field
        | replace t with ((1-u)/2) by by_field ].

Ltac simplify_point e u v :=
  match goal with
  | |- context [L e ?p] =>
      let p' := eval cbn [L Segment_Linear_L Segment_Quadratic_L Triangle_Linear_L Triangle_Quadratic_L
                          Quad_Linear_L Quad_Quadratic_L RectangularQuad_Linear_L RectangularQuad_Quadratic_L
                          boundary_elements_node_indices edges edge_type is_quadratic nth map fold_right map2 Rsum CanonicalDimension canonical_nodes
                          Quad_Linear_canonical_nodes Quad_Quadratic_canonical_nodes
                          Hexahedron_Linear_canonical_nodes Hexahedron_Quadratic_canonical_nodes
                          length seq world_coordinates interpolate pick] in p in
      change p with p'
  end;
  match goal with
  | |- context [L e [?a; ?b; ?c]] => simplify_to a u v; simplify_to b u v; simplify_to c u v
  | |- context [L e [?a; ?b]] => simplify_to a u v; simplify_to b u v
  end.

Lemma face_trace : forall e be k eta NbCols values, e <> RectangularHexahedron_Quadratic ->
  BoundaryElementType e = Some be ->
  (k < NumberOfBoundaryElements e)%nat -> length eta = CanonicalDimension be ->
  length values = NumberOfNodes e ->
  let face := nth k (boundary_elements_node_indices e) [] in
  let xi := world_coordinates (CanonicalDimension e) be (pick (canonical_nodes e) face) eta in
  interpolate NbCols e xi values = interpolate NbCols be eta (pick values face).
Proof.
  intros e be k eta NbCols values He Hb Hk Heta Hv face xi.
  unfold interpolate. apply map_ext. intros c.
  rewrite (map2_seq _ _ _ [] 0 (NumberOfNodes e)) by (exact Hv || apply length_L).
  unfold xi, face. clear xi face.
  destruct e; try congruence; (discriminate Hb || injection Hb as <-); cbn [NumberOfBoundaryElements] in Hk; len_xi eta Heta;
  cases_lt k Hk ltac:(
    lazymatch goal with
    | |- context [L ?e (world_coordinates _ _ _ [?u; ?v])] => simplify_point e u v
    | |- context [L ?e (world_coordinates _ _ _ [?u])] => simplify_point e u u
    end;
    unfold interpolate, pick;
    cbn [boundary_elements_node_indices nth map];
    unfold_shape;
    rewrite ?half_literal; field).
Qed.

(** Edges of the volume elements *)
Lemma edge_trace : forall e k eta NbCols values, (2 <= CanonicalDimension e)%nat ->
  (k < length (edges e))%nat -> length values = NumberOfNodes e ->
  let edge := nth k (edges e) [] in
  let xi := world_coordinates (CanonicalDimension e) (edge_type e) (pick (canonical_nodes e) edge) [eta] in
  interpolate NbCols e xi values = interpolate NbCols (edge_type e) [eta] (pick values edge).
Proof.
  intros e k eta NbCols values Hd Hk Hv edge xi.
  unfold interpolate. apply map_ext. intros c.
  rewrite (map2_seq _ _ _ [] 0 (NumberOfNodes e)) by (exact Hv || apply length_L).
  unfold xi, edge. clear xi edge.
  destruct e; cbn [CanonicalDimension] in Hd; try (exfalso; lia); cbn [edges boundary_elements_node_indices length] in Hk;
  cases_lt k Hk ltac:(
    lazymatch goal with |- context [L ?e (world_coordinates _ _ _ [?u])] => simplify_point e u u end;
    unfold interpolate, pick, edge_type;
    cbn [edges boundary_elements_node_indices nth map is_quadratic];
    unfold_shape;
    rewrite ?half_literal; field).
Qed.

(** The edges of a volume element are exactly the intersections of two of its faces. *)
Definition same_nodes (f g : list nat) : bool :=
  (forallb (fun i => if in_dec Nat.eq_dec i g then true else false) f &&
   forallb (fun i => if in_dec Nat.eq_dec i f then true else false) g)%bool.

Lemma same_nodes_spec : forall f g, same_nodes f g = true <-> (forall i, In i f <-> In i g).
Proof.
  intros f g. unfold same_nodes. rewrite Bool.andb_true_iff, !forallb_forall. split.
  - intros [A B] i. split; intros H; [specialize (A i H); destruct (in_dec Nat.eq_dec i g)
                                     | specialize (B i H); destruct (in_dec Nat.eq_dec i f)];
      assumption || discriminate.
  - intros A. split; intros i H; destruct (in_dec Nat.eq_dec i _) as [|N]; try reflexivity; exfalso; apply N, A, H.
Qed.

Lemma edges_are_intersections : forall e edge, CanonicalDimension e = 3%nat ->
  e <> RectangularHexahedron_Quadratic -> In edge (edges e) ->
  exists i j, (i < j < NumberOfBoundaryElements e)%nat /\
      forall n, In n edge <-> In n (nth i (boundary_elements_node_indices e) []) /\
      In n (nth j (boundary_elements_node_indices e) []).
Proof.
  intros e edge Hd He H.
  assert (B : forallb (fun edge => existsb (fun i => existsb (fun j =>
      (Nat.ltb i j && Nat.ltb j (NumberOfBoundaryElements e) &&
       same_nodes edge (shared (nth i (boundary_elements_node_indices e) [])
                               (nth j (boundary_elements_node_indices e) [])))%bool)
      (seq 0 6)) (seq 0 6)) (edges e) = true).
  { destruct e; try discriminate Hd; try congruence; vm_compute; reflexivity. }
  rewrite forallb_forall in B. specialize (B edge H).
  apply existsb_exists in B. destruct B as (i & _ & B). apply existsb_exists in B. destruct B as (j & _ & B).
  apply andb_prop in B. destruct B as [B B3]. apply andb_prop in B. destruct B as [B1 B2].
  apply Nat.ltb_lt in B1, B2. exists i, j. split; [lia|]. intros n.
  rewrite (proj1 (same_nodes_spec _ _) B3 n). unfold shared. rewrite filter_In.
  destruct (in_dec Nat.eq_dec n (nth j (boundary_elements_node_indices e) [])); intuition congruence.
Qed.

Lemma intersections_are_edges : forall e i j, CanonicalDimension e = 3%nat ->
  e <> RectangularHexahedron_Quadratic -> (i < j < NumberOfBoundaryElements e)%nat ->
  (exists n, In n (nth i (boundary_elements_node_indices e) []) /\
      In n (nth j (boundary_elements_node_indices e) [])) ->
  exists k, (k < length (edges e))%nat /\
      (forall n, In n (nth k (edges e) []) <-> In n (nth i (boundary_elements_node_indices e) []) /\
      In n (nth j (boundary_elements_node_indices e) [])) /\
      (forall k', (k' < length (edges e))%nat ->
       (forall n, In n (nth k' (edges e) []) <-> In n (nth k (edges e) [])) -> k' = k).
Proof.
  intros e i j Hd He Hij [n [Hi Hj]].
  set (fi := nth i (boundary_elements_node_indices e) []) in *.
  set (fj := nth j (boundary_elements_node_indices e) []) in *.
  assert (B : forallb (fun i => forallb (fun j =>
      (negb (Nat.ltb i j && Nat.ltb j (NumberOfBoundaryElements e)) ||
       let s := shared (nth i (boundary_elements_node_indices e) []) (nth j (boundary_elements_node_indices e) []) in
       match s with [] => true | _ => existsb (fun k => same_nodes (nth k (edges e) []) s) (seq 0 (length (edges e))) end)%bool)
      (seq 0 6)) (seq 0 6) = true).
  { destruct e; try discriminate Hd; try congruence; vm_compute; reflexivity. }
  assert (U : forallb (fun k => forallb (fun k' =>
      (Nat.eqb k k' || negb (same_nodes (nth k (edges e) []) (nth k' (edges e) [])))%bool)
      (seq 0 (length (edges e)))) (seq 0 (length (edges e))) = true).
  { destruct e; try discriminate Hd; vm_compute; reflexivity. }
  assert (H6 : (NumberOfBoundaryElements e <= 6)%nat) by (destruct e; simpl; lia).
  rewrite forallb_forall in B. specialize (B i ltac:(apply in_seq; lia)).
  rewrite forallb_forall in B. specialize (B j ltac:(apply in_seq; lia)).
  fold fi fj in B. rewrite (proj2 (Nat.ltb_lt i j)), (proj2 (Nat.ltb_lt j _)) in B by lia. simpl negb in B.
  cbv zeta in B. simpl orb in B.
  assert (Hn : In n (shared fi fj)).
  { unfold shared. apply filter_In. split; [exact Hi|]. destruct (in_dec Nat.eq_dec n fj); [reflexivity|contradiction]. }
  destruct (shared fi fj) as [|a s] eqn:E; [contradiction|]. rewrite <- E in *. clear E a s.
  apply existsb_exists in B. destruct B as (k & Hk & B). apply in_seq in Hk.
  exists k. split; [lia|]. split.
  - intros m. rewrite (proj1 (same_nodes_spec _ _) B m). unfold shared. rewrite filter_In.
    destruct (in_dec Nat.eq_dec m fj); intuition congruence.
  - intros k' Hk' S. rewrite forallb_forall in U. specialize (U k' ltac:(apply in_seq; lia)).
    rewrite forallb_forall in U. specialize (U k ltac:(apply in_seq; lia)).
    apply Bool.orb_true_iff in U. destruct U as [U|U]; [apply Nat.eqb_eq; exact U|].
    rewrite (proj2 (same_nodes_spec _ _) S) in U. discriminate.
Qed.

(** The face table of the quadratic rectangular hexahedron refers to another numbering of the nodes. *)
Lemma rectangular_hexahedron_quadratic_face_off :
  In 13%nat (nth 0 (boundary_elements_node_indices RectangularHexahedron_Quadratic) []) /\
  nth 0 (sides RectangularHexahedron_Quadratic) (fun _ => 1)
        (nth 13 (canonical_nodes RectangularHexahedron_Quadratic) []) = 2.
Proof. split; [cbn; tauto|cbn; lra]. Qed.
