(** C94: what the force fields draw of their mesh. *)

From Coq Require Import ZArith Reals Lra Lia.
From Coquelicot Require Import Coquelicot.
From Coq Require Import List Arith Bool.
From Verif Require Import GridGeoModel ShapeModel ShapeSpec Sums ShapeProofs ShapeFieldProofs ShapeGaussProofs LinAlg LinAlgProofs RectSpec NewtonLocalProofs BarycentricModel DrawModel DrawSpec DrawProofs DrawProofs2 DrawProofs3 DrawProofs4.
Import ListNotations.
Open Scope R_scope.

Definition fits (d : domain) (x : list (list R)) : Prop := placed (dim d) (NumberOfNodes (kind d)) (connectivity d) x.

(** Nothing is drawn when the force fields are hidden, and a drawing is always made from positions that exist. *)
Theorem C94_hidden : forall d s x, draw false d s x = Some [].
Proof. intros. reflexivity. Qed.
Print Assumptions C94_hidden.
Theorem C94_draws : forall d s x, fits d x -> exists calls, draw true d s x = Some calls.
Proof.
  intros d s x P. destruct (connectivity d) eqn:E; [exists []; apply draw_empty; exact E|].
  exists (the_calls d s x). apply draw_calls; [congruence|exact (placed_range _ _ _ _ P)].
Qed.
Print Assumptions C94_draws.

(** The drawing of a mesh is made of the drawings of its elements. *)
Theorem C94_element_by_element : forall d s x r1 r2, r1 <> [] -> r2 <> [] -> fits (with_elements d (r1 ++ r2)) x ->
  exists c c1 c2, draw true (with_elements d (r1 ++ r2)) s x = Some c /\ draw true (with_elements d r1) s x = Some c1 /\ draw true (with_elements d r2) s x = Some c2 /\
    map vertices c = map2 (@app (list R)) (map vertices c1) (map vertices c2) /\ map color c = map color c1 /\ map color c = map color c2.
Proof.
  intros d s x r1 r2 N1 N2 P. pose proof (placed_range _ _ _ _ P) as R. cbn [connectivity with_elements] in R.
  eexists _, _, _.
  split; [apply draw_calls; [cbn; destruct r1; [congruence|discriminate]|exact R]|].
  split; [apply draw_calls; [exact N1|cbn; intros row i Hr Hi; apply (R row i); [apply in_or_app; left; exact Hr|exact Hi]]|].
  split; [apply draw_calls; [exact N2|cbn; intros row i Hr Hi; apply (R row i); [apply in_or_app; right; exact Hr|exact Hi]]|].
  unfold the_calls. cbn [kind with_elements connectivity]. rewrite !map_map. cbn [vertices color]. split; [|split; reflexivity].
  rewrite map2_map_map_app. apply map_ext. intros f. apply flat_map_app.
Qed.
Print Assumptions C94_element_by_element.

(** One call for each face of the volume elements, one call for the surface elements, in different colors. *)
Theorem C94_groups : forall d s x calls, drawable d -> connectivity d <> [] -> fits d x -> draw true d s x = Some calls ->
  length calls = (if Nat.eqb (CanonicalDimension (kind d)) 2 then 1%nat else NumberOfBoundaryElements (kind d)) /\ NoDup (map color calls).
Proof.
  intros d s x calls DR N P E. rewrite draw_calls in E by (exact N || exact (placed_range _ _ _ _ P)). injection E as <-.
  unfold the_calls. rewrite map_length, seq_length, map_map. cbn [color].
  destruct (proj1 (drawable_known d DR)) as [H|H]; destruct H as [<-|[<-|[<-|[<-|[]]]]]; (split; [reflexivity|]); vm_compute;
  repeat (apply NoDup_cons; [intros HI; repeat (destruct HI as [HI|HI]; [discriminate HI|]); exact HI|]); apply NoDup_nil.
Qed.
Print Assumptions C94_groups.

(** The call of a face has the corners of this face, moved towards the center of the element by the scale, and two triangles
    for a face with four corners, one for a face with three. *)
Theorem C94_faces : forall d s x row calls f, drawable d -> connectivity d = [row] -> fits d x -> draw true d s x = Some calls -> (f < length calls)%nat ->
  let c := world_coordinates (dim d) (kind d) (nodes_at x row) (center_local (kind d)) in
  (forall v, In v (vertices (nth f calls {| vertices := []; color := [] |})) <->
     exists i, In i (corners_of_face (kind d) f) /\ v = in_space (dim d) (vadd c (vscale s (vminus (nth i (nodes_at x row) []) c)))) /\
  length (triangles (vertices (nth f calls {| vertices := []; color := [] |}))) = (length (corners_of_face (kind d) f) - 2)%nat.
Proof.
  intros d s x row calls f DR C P E Hf c. destruct (drawable_known d DR) as [HK HD].
  rewrite draw_calls in E by (rewrite ?C; (discriminate || (pose proof (placed_range _ _ _ _ P) as R; rewrite C in R; exact R))). injection E as <-.
  unfold the_calls in *. rewrite map_length, seq_length in Hf. rewrite nth_map_seq_d by exact Hf. cbn [vertices]. rewrite C. cbn [flat_map]. rewrite app_nil_r.
  destruct (corners_of_triangles (kind d) f HK Hf) as (I & _ & Len & Lt).
  assert (T : table (NumberOfNodes (kind d)) (dim d) (nodes_at x row)) by (apply (placed_table _ _ _ _ row P); rewrite C; left; reflexivity).
  split.
  - intros v. unfold face_points, triangulate_face. rewrite in_map_iff. split.
    + intros (i & <- & Hi). exists i. split; [apply I; exact Hi|]. apply I in Hi.
      pose proof (Nat.lt_le_trans _ _ _ (Lt i Hi) (corners_are_nodes (kind d))) as Hn.
      destruct (face_point (dim d) (kind d) s (nodes_at x row) i T Hn) as [Eq Le]. rewrite emplace_space by assumption. rewrite Eq. reflexivity.
    + intros (i & Hi & ->). exists i. split; [|apply I; exact Hi].
      pose proof (Nat.lt_le_trans _ _ _ (Lt i Hi) (corners_are_nodes (kind d))) as Hn.
      destruct (face_point (dim d) (kind d) s (nodes_at x row) i T Hn) as [Eq Le]. rewrite emplace_space by assumption. rewrite Eq. reflexivity.
  - unfold face_points, triangulate_face. assert (X : forall k (l : list (list R)), length l = (3 * k)%nat -> length (triangles l) = k).
    { clear. induction k as [|k IH]; intros l L; [destruct l; [reflexivity|cbn in L; lia]|]. destruct l as [|p [|q [|r l]]]; cbn in L; try lia. cbn. rewrite IH; lia. }
    apply X. rewrite map_length. exact Len.
Qed.
Print Assumptions C94_faces.

(** With a scale of one the vertices are the nodes of the faces, where they are. *)
Theorem C94_unit_scale : forall d x row calls f v, drawable d -> connectivity d = [row] -> fits d x -> draw true d 1 x = Some calls -> (f < length calls)%nat ->
  In v (vertices (nth f calls {| vertices := []; color := [] |})) ->
  exists i, In i (corners_of_face (kind d) f) /\ v = in_space (dim d) (nth (nth i row O) x []).
Proof.
  intros d x row calls f v DR C P E Hf Hv. destruct (drawable_known d DR) as [HK HD].
  destruct (C94_faces d 1 x row calls f DR C P E Hf) as [I _]. apply I in Hv. destruct Hv as (i & Hi & ->). exists i. split; [exact Hi|].
  assert (T : table (NumberOfNodes (kind d)) (dim d) (nodes_at x row)) by (apply (placed_table _ _ _ _ row P); rewrite C; left; reflexivity).
  assert (Hn : (i < NumberOfNodes (kind d))%nat).
  { rewrite draw_calls in E by (rewrite ?C; (discriminate || (pose proof (placed_range _ _ _ _ P) as R; rewrite C in R; exact R))). injection E as <-.
    unfold the_calls in Hf. rewrite map_length, seq_length in Hf. destruct (corners_of_triangles (kind d) f HK Hf) as (_ & _ & _ & Lt).
    exact (Nat.lt_le_trans _ _ _ (Lt i Hi) (corners_are_nodes (kind d))). }
  assert (Hl : (i < length row)%nat) by (destruct T as [L _]; unfold nodes_at in L; rewrite map_length in L; lia).
  fold (towards 1 (world_coordinates (dim d) (kind d) (nodes_at x row) (center_local (kind d))) (nth i (nodes_at x row) [])).
  rewrite towards_one.
  - f_equal. unfold nodes_at. rewrite (nth_map_lt _ O) by exact Hl. reflexivity.
  - rewrite world_length. apply (proj1 (Forall_forall _ _) (proj2 T)). apply nth_In. rewrite (proj1 T). exact Hn.
Qed.
Print Assumptions C94_unit_scale.

(** The drawing moves with the body, for every affine motion (translations, rotations, stretches). *)
Theorem C94_moves_with_the_body : forall show d s A t x, drawable d -> fits d x -> table (dim d) (dim d) A -> length t = dim d ->
  draw show d s (map (affine_map A t) x) = option_map (moved (lift_matrix (dim d) A) (lift_vector (dim d) t)) (draw show d s x).
Proof.
  intros [|] d s A t x DR P TA Lt; [|reflexivity]. destruct (connectivity d) eqn:E.
  - rewrite !draw_empty by exact E. reflexivity.
  - rewrite !draw_calls; try congruence; [cbn [option_map]; f_equal; apply the_calls_moved; assumption|exact (placed_range _ _ _ _ P)|].
    intros row i Hr Hi. rewrite map_length. exact (placed_range _ _ _ _ P row i Hr Hi).
Qed.
Print Assumptions C94_moves_with_the_body.

(** The triangles drawn for volume elements of any shape are a closed, consistently oriented surface. *)
Theorem C94_closed : forall d s x calls, drawable d -> CanonicalDimension (kind d) = 3%nat -> fits d x -> draw true d s x = Some calls ->
  closed_surface (all_vertices calls).
Proof.
  intros d s x calls DR C3 P E w W. destruct (connectivity d) eqn:EC.
  - rewrite draw_empty in E by exact EC. injection E as <-. reflexivity.
  - rewrite draw_calls in E; [|congruence|exact (placed_range _ _ _ _ P)]. injection E as <-.
    rewrite triangle_sum. apply Rsum_zero. intros row _.
    destruct DR as [[H _]|[H D]]; [exfalso; destruct H as [K|[K|[K|[K|[]]]]]; rewrite <- K in C3; discriminate|].
    rewrite D. apply element_closed; assumption.
Qed.
Print Assumptions C94_closed.

(** For straight volume elements this surface encloses their volume times the cube of the scale ... *)
Theorem C94_volume : forall d s x calls, drawable d -> CanonicalDimension (kind d) = 3%nat -> fits d x ->
  (forall row, In row (connectivity d) -> exists x0 E, affine_element 3 (kind d) (nodes_at x row) x0 E) -> draw true d s x = Some calls ->
  enclosed_volume (all_vertices calls) = s ^ 3 * Rsum (map (fun row => measure 3 (kind d) (nodes_at x row)) (connectivity d)).
Proof.
  intros d s x calls DR C3 P A E. destruct (connectivity d) eqn:EC.
  - rewrite draw_empty in E by exact EC. injection E as <-. cbn. ring.
  - rewrite draw_calls in E; [|congruence|exact (placed_range _ _ _ _ P)]. injection E as <-.
    unfold enclosed_volume. rewrite triangle_sum. rewrite <- Rsum_scal_l. rewrite <- EC in *. apply Rsum_ext. intros row Hr.
    destruct DR as [[H _]|[H D]]; [exfalso; destruct H as [K|[K|[K|[K|[]]]]]; rewrite <- K in C3; discriminate|].
    destruct (A row Hr) as (x0 & M & AF). rewrite D. apply (element_volume (kind d) _ x0 M s H); [|exact AF].
    rewrite <- D. exact (placed_table _ _ _ _ row P Hr).
Qed.
Print Assumptions C94_volume.

(** ... and its triangles are all turned to the outside. *)
Theorem C94_outward : forall d s x row calls t, drawable d -> CanonicalDimension (kind d) = 3%nat -> connectivity d = [row] -> fits d x ->
  (exists x0 E, affine_element 3 (kind d) (nodes_at x row) x0 E) -> 0 < s -> 0 < measure 3 (kind d) (nodes_at x row) -> draw true d s x = Some calls ->
  In t (triangles (all_vertices calls)) -> faces_away_from (world_coordinates 3 (kind d) (nodes_at x row) (center_local (kind d))) t.
Proof.
  intros d s x row calls t DR C3 C P (x0 & E & AF) Hs M EQ Ht.
  assert (T : table (NumberOfNodes (kind d)) (dim d) (nodes_at x row)) by (apply (placed_table _ _ _ _ row P); rewrite C; left; reflexivity).
  destruct DR as [[H _]|[H D]]; [exfalso; destruct H as [K|[K|[K|[K|[]]]]]; rewrite <- K in C3; discriminate|].
  rewrite D in T. rewrite (measure_affine 3 (kind d) _ x0 E T AF) in M.
  assert (ME : 0 < reference_measure (kind d)) by (destruct H as [<-|[<-|[<-|[<-|[]]]]]; cbn; lra).
  assert (DE : 0 < det E) by (destruct (Rlt_le_dec 0 (det E)) as [X|X]; [exact X|exfalso; nra]).
  rewrite draw_calls in EQ by (rewrite ?C; (discriminate || (pose proof (placed_range _ _ _ _ P) as R; rewrite C in R; exact R))). injection EQ as <-.
  apply (element_outward (kind d) _ x0 E s t H T AF Hs DE).
  unfold all_vertices, the_calls in Ht. rewrite flat_map_concat_map, map_map in Ht. cbn [vertices] in Ht. rewrite <- flat_map_concat_map in Ht.
  rewrite triangles_flat_map in Ht by (intros f _; apply by_three_flat_map; intros r _; apply face_by_three).
  unfold element_triangles. apply in_flat_map in Ht. destruct Ht as (f & Hf & Ht). apply in_flat_map. exists f. split; [exact Hf|].
  rewrite C in Ht. cbn [flat_map] in Ht. rewrite app_nil_r in Ht. unfold face_points in Ht. rewrite D in Ht. exact Ht.
Qed.
Print Assumptions C94_outward.

(** In the plane, the triangles drawn have the area of the elements times the square of the scale: for straight elements, and for
    linear quads of any shape. *)
Theorem C94_area : forall d s x calls, drawable d -> dim d = 2%nat -> fits d x ->
  (kind d = Quad_Linear \/ forall row, In row (connectivity d) -> exists x0 E, affine_element 2 (kind d) (nodes_at x row) x0 E) -> draw true d s x = Some calls ->
  flat_area (all_vertices calls) = s ^ 2 * Rsum (map (fun row => measure 2 (kind d) (nodes_at x row)) (connectivity d)).
Proof.
  intros d s x calls DR D2 P A E. destruct (connectivity d) eqn:EC.
  - rewrite draw_empty in E by exact EC. injection E as <-. cbn. ring.
  - rewrite draw_calls in E; [|congruence|exact (placed_range _ _ _ _ P)]. injection E as <-.
    unfold flat_area. rewrite triangle_sum. rewrite <- Rsum_scal_l. rewrite <- EC in *. apply Rsum_ext. intros row Hr.
    pose proof (placed_table _ _ _ _ row P Hr) as T. rewrite D2 in *.
    destruct DR as [[H _]|[_ D]]; [|congruence].
    destruct A as [K|A]; [rewrite K in *; apply quad_area; exact T|].
    destruct (A row Hr) as (x0 & M & AF). apply (element_area (kind d) _ x0 M s H); [exact T|exact AF].
Qed.
Print Assumptions C94_area.

(** A linear element drawn with a scale between 0 and 1 stays within its nodes. *)
Theorem C94_inside : forall d s x row calls v, drawable d -> linear_kind (kind d) -> connectivity d = [row] -> fits d x -> 0 <= s <= 1 ->
  draw true d s x = Some calls -> In v (all_vertices calls) -> in_hull 3 (map (in_space (dim d)) (nodes_at x row)) v.
Proof.
  intros d s x row calls v DR HL C P Hs E Hv. destruct (drawable_known d DR) as [HK HD].
  apply in_flat_map in Hv. destruct Hv as (k & Hk & Hv). destruct (In_nth _ _ {| vertices := []; color := [] |} Hk) as (f & Hf & Ef).
  destruct (C94_faces d s x row calls f DR C P E Hf) as [I _]. rewrite Ef in I. apply I in Hv. destruct Hv as (i & Hi & ->).
  assert (T : table (NumberOfNodes (kind d)) (dim d) (nodes_at x row)) by (apply (placed_table _ _ _ _ row P); rewrite C; left; reflexivity).
  apply towards_hull; try assumption.
  rewrite draw_calls in E by (rewrite ?C; (discriminate || (pose proof (placed_range _ _ _ _ P) as R; rewrite C in R; exact R))). injection E as <-.
  unfold the_calls in Hf. rewrite map_length, seq_length in Hf. destruct (corners_of_triangles (kind d) f HK Hf) as (_ & _ & _ & Lt).
  exact (Nat.lt_le_trans _ _ _ (Lt i Hi) (corners_are_nodes (kind d))).
Qed.
Print Assumptions C94_inside.

(** The bend of the sides of quadratic elements is never shown: with a scale of one, the drawing depends on the corners only. *)
Theorem C94_curved_sides_refuted : forall d x x', drawable d -> fits d x -> fits d x' ->
  (forall row i, In row (connectivity d) -> (i < number_of_corners (kind d))%nat -> nth (nth i row O) x [] = nth (nth i row O) x' []) ->
  draw true d 1 x = draw true d 1 x'.
Proof.
  intros d x x' DR P P' S. destruct (drawable_known d DR) as [HK HD]. destruct (connectivity d) eqn:EC.
  - rewrite !draw_empty by exact EC. reflexivity.
  - rewrite !draw_calls; try congruence; [|exact (placed_range _ _ _ _ P')|exact (placed_range _ _ _ _ P)]. f_equal. unfold the_calls. apply map_ext_in. intros f Hf. apply in_seq in Hf.
    f_equal. rewrite <- EC in *. rewrite !flat_map_concat_map. f_equal. apply map_ext_in. intros row Hr. unfold face_points, triangulate_face. apply map_ext_in. intros i Hi. f_equal.
    destruct (corners_of_triangles (kind d) f HK (proj2 Hf)) as (I & _ & _ & Lt). apply I in Hi. pose proof (Lt i Hi) as Hc.
    pose proof (Nat.lt_le_trans _ _ _ Hc (corners_are_nodes (kind d))) as Hn.
    pose proof (placed_table _ _ _ _ row P Hr) as T. pose proof (placed_table _ _ _ _ row P' Hr) as T'.
    rewrite (proj1 (face_point _ _ 1 _ i T Hn)), (proj1 (face_point _ _ 1 _ i T' Hn)).
    assert (LT : length (nth i (nodes_at x row) []) = dim d) by (apply (proj1 (Forall_forall _ _) (proj2 T)); apply nth_In; rewrite (proj1 T); exact Hn).
    assert (LT' : length (nth i (nodes_at x' row) []) = dim d) by (apply (proj1 (Forall_forall _ _) (proj2 T')); apply nth_In; rewrite (proj1 T'); exact Hn).
    rewrite !towards_one by (rewrite world_length; assumption).
    assert (Hl : (i < length row)%nat) by (destruct T as [L _]; unfold nodes_at in L; rewrite map_length in L; lia).
    unfold nodes_at. rewrite !(nth_map_lt _ O) by exact Hl. exact (S row i Hr Hc).
Qed.
Print Assumptions C94_curved_sides_refuted.

(** The flat triangles of a warped hexahedron do not enclose its volume. *)
Definition warped : list (list R) := [[-1; -1; -1]; [1; -1; -1]; [1; 1; -1]; [-1; 1; -1]; [-1; -1; 1]; [1; -1; 1]; [1; 1; 2]; [-1; 1; 1]].
Definition one_hexahedron : domain := {| dim := 3; kind := Hexahedron_Linear; positions := warped; connectivity := [[0; 1; 2; 3; 4; 5; 6; 7]%nat] |}.
Theorem C94_warped_hexahedron_refuted : drawable one_hexahedron /\ fits one_hexahedron warped /\
  exists calls, draw true one_hexahedron 1 warped = Some calls /\
    enclosed_volume (all_vertices calls) = 28 / 3 /\ measure 3 Hexahedron_Linear (nodes_at warped [0; 1; 2; 3; 4; 5; 6; 7]%nat) = 9.
Proof.
  split; [right; split; [right; right; left; reflexivity|reflexivity]|].
  assert (P : fits one_hexahedron warped).
  { split; [|repeat (apply Forall_cons; [reflexivity|]); apply Forall_nil]. apply Forall_cons; [|apply Forall_nil]. split; [reflexivity|].
    repeat (apply Forall_cons; [cbn; lia|]); apply Forall_nil. }
  split; [exact P|]. eexists. split; [apply draw_calls; [discriminate|exact (placed_range _ _ _ _ P)]|]. split.
  - unfold enclosed_volume. rewrite triangle_sum. cbn -[Rplus Rmult Rminus Ropp Rdiv Rinv IZR]. lra.
  - unfold measure, quadrature. cbn -[Rplus Rmult Rminus Ropp Rdiv Rinv IZR]. rewrite ?neg_g3. fold g3. field.
Qed.
Print Assumptions C94_warped_hexahedron_refuted.

(** ** The co-rotational force fields *)

(** HexahedronElasticForce draws the nodes moved towards the center by 15%, and the drawing moves with the body ... *)
Theorem C94_hexahedron_force : forall x rows calls, placed 3 8 rows x -> draw_hexahedra true true x rows = Some calls ->
  (forall v, In v (all_vertices calls) <-> exists row i, In row rows /\ (i < 8)%nat /\
     let c := world_coordinates 3 Hexahedron_Linear (nodes_at x row) [0; 0; 0] in v = vadd c (vscale (85 / 100) (vminus (nth (nth i row O) x []) c))) /\
  (forall A t, table 3 3 A -> length t = 3%nat -> draw_hexahedra true true (map (affine_map A t) x) rows = Some (moved A t calls)).
Proof. exact hexahedron_force_drawing. Qed.
Print Assumptions C94_hexahedron_force.
(** ... within the nodes of its elements. *)
Theorem C94_hexahedron_force_inside : forall x row calls v, placed 3 8 [row] x -> draw_hexahedra true true x [row] = Some calls ->
  In v (all_vertices calls) -> in_hull 3 (nodes_at x row) v.
Proof. exact hexahedron_force_hull. Qed.
Print Assumptions C94_hexahedron_force_inside.
(** Everything is drawn twice at the same place: the second time in grey. *)
Theorem C94_hexahedron_force_twice_refuted : forall x rows calls, placed 3 8 rows x -> draw_hexahedra true true x rows = Some calls ->
  length calls = 12%nat /\ map vertices (skipn 6 calls) = map vertices (firstn 6 calls).
Proof.
  intros x rows calls P E. rewrite (draw_hexahedra_calls 3) in E by exact P. injection E as <-. split; reflexivity.
Qed.
Print Assumptions C94_hexahedron_force_twice_refuted.

(** TetrahedronElasticForce: the drawing is 1.0000005 times the nodes moved towards the center by a third. *)
Theorem C94_tetrahedron_force_partial : forall x rows calls, placed 3 4 rows x -> draw_tetrahedra true true x rows = Some calls ->
  forall v, In v (all_vertices calls) <-> exists row i, In row rows /\ (i < 4)%nat /\
     let c := world_coordinates 3 Tetrahedron_Linear (nodes_at x row) [1 / 4; 1 / 4; 1 / 4] in
     v = vscale (20000010 / 20000000) (vadd c (vscale (2 / 3) (vminus (nth (nth i row O) x []) c))).
Proof. exact tetrahedron_force_drawing. Qed.
Print Assumptions C94_tetrahedron_force_partial.
(** So the drawing does not move with the body: a translation t moves it by 1.0000005 t. *)
Theorem C94_tetrahedron_force_drift_refuted : forall x rows calls A t, placed 3 4 rows x -> rows <> [] -> draw_tetrahedra true true x rows = Some calls ->
  table 3 3 A -> length t = 3%nat ->
  draw_tetrahedra true true (map (affine_map A t) x) rows = Some (moved A (vscale (20000010 / 20000000) t) calls) /\
  (t <> [0; 0; 0] -> draw_tetrahedra true true (map (affine_map A t) x) rows <> Some (moved A t calls)).
Proof. exact tetrahedron_force_drift. Qed.
Print Assumptions C94_tetrahedron_force_drift_refuted.

(** The triangles of a tetrahedron are not turned to the same side: one is turned to the inside, one to the outside. *)
Theorem C94_tetrahedron_force_winding_refuted : forall x row calls, placed 3 4 [row] x -> draw_tetrahedra true true x [row] = Some calls ->
  0 < measure 3 Tetrahedron_Linear (nodes_at x row) ->
  exists c t1 t2, in_hull 3 (all_vertices calls) c /\ In t1 (triangles (all_vertices calls)) /\ In t2 (triangles (all_vertices calls)) /\
    faces_towards c t1 /\ faces_away_from c t2.
Proof. exact tetrahedron_force_winding. Qed.
Print Assumptions C94_tetrahedron_force_winding_refuted.
Theorem C94_hexahedron_force_winding_refuted : forall x row calls, placed 3 8 [row] x -> draw_hexahedra true true x [row] = Some calls ->
  (exists x0 E, affine_element 3 Hexahedron_Linear (nodes_at x row) x0 E) -> 0 < measure 3 Hexahedron_Linear (nodes_at x row) ->
  exists c t1 t2, in_hull 3 (all_vertices calls) c /\ In t1 (triangles (all_vertices calls)) /\ In t2 (triangles (all_vertices calls)) /\
    faces_towards c t1 /\ faces_away_from c t2.
Proof. exact hexahedron_force_winding. Qed.
Print Assumptions C94_hexahedron_force_winding_refuted.

(** ** Concrete cases *)

(** Two tetrahedra of R^3 that share a face, drawn at half their size: four calls of two triangles each, which enclose an eighth
    of the volume of the mesh. *)
Definition two_cells : domain := {| dim := 3; kind := Tetrahedron_Linear; positions := [[0; 0; 0]; [1; 0; 0]; [0; 1; 0]; [0; 0; 1]; [1; 1; 1]];
  connectivity := [[0; 1; 2; 3]%nat; [1; 2; 3; 4]%nat] |}.
Example C94_two_cells : drawable two_cells /\ fits two_cells (positions two_cells) /\
  (forall row, In row (connectivity two_cells) -> exists x0 E, affine_element 3 (kind two_cells) (nodes_at (positions two_cells) row) x0 E) /\
  exists calls, draw true two_cells (1 / 2) (positions two_cells) = Some calls /\ map (fun c => length (vertices c)) calls = [6; 6; 6; 6]%nat /\
    enclosed_volume (all_vertices calls) = 1 / 8 * (1 / 6 + 1 / 3) /\
    vertices (nth 0 calls {| vertices := []; color := [] |}) = [[1/8; 1/8; 1/8]; [1/8; 5/8; 1/8]; [5/8; 1/8; 1/8]; [3/4; 1/4; 1/4]; [1/4; 1/4; 3/4]; [1/4; 3/4; 1/4]].
Proof.
  split; [right; split; [left; reflexivity|reflexivity]|].
  assert (P : fits two_cells (positions two_cells)).
  { split; [|repeat (apply Forall_cons; [reflexivity|]); apply Forall_nil].
    repeat (apply Forall_cons; [split; [reflexivity|repeat (apply Forall_cons; [cbn; lia|]); apply Forall_nil]|]). apply Forall_nil. }
  split; [exact P|]. split.
  { intros row Hr. do 2 eexists. apply linear_simplices_affine; [right; right; reflexivity|]. exact (placed_table _ _ _ _ row P Hr). }
  eexists. split; [apply draw_calls; [discriminate|exact (placed_range _ _ _ _ P)]|]. split; [reflexivity|]. split.
  - unfold enclosed_volume. rewrite triangle_sum. cbn -[Rplus Rmult Rminus Ropp Rdiv Rinv IZR]. lra.
  - cbn -[Rplus Rmult Rminus Ropp Rdiv Rinv IZR]. unfold emplace. cbn [nth Nat.eqb]. repeat (apply f_equal2; [repeat (apply f_equal2; [lra|]); reflexivity|]). reflexivity.
Qed.

(** A triangle with six nodes: a bend of its first side changes its area, and not its drawing. *)
Definition bent_triangle (h : R) : list (list R) := [[0; 0]; [1; 0]; [0; 1]; [1 / 2; - h]; [1 / 2; 1 / 2]; [0; 1 / 2]].
Definition one_triangle : domain := {| dim := 2; kind := Triangle_Quadratic; positions := bent_triangle 0; connectivity := [[0; 1; 2; 3; 4; 5]%nat] |}.
Example C94_bent_triangle : forall h, fits one_triangle (bent_triangle h) /\ draw true one_triangle 1 (bent_triangle h) = draw true one_triangle 1 (bent_triangle 0) /\
  measure 2 Triangle_Quadratic (nodes_at (bent_triangle h) [0; 1; 2; 3; 4; 5]%nat) = 1 / 2 + 2 / 3 * h.
Proof.
  assert (P : forall h, fits one_triangle (bent_triangle h)).
  { intros h. split; [|repeat (apply Forall_cons; [reflexivity|]); apply Forall_nil].
    repeat (apply Forall_cons; [split; [reflexivity|repeat (apply Forall_cons; [cbn; lia|]); apply Forall_nil]|]). apply Forall_nil. }
  intros h. split; [apply P|]. split.
  - apply C94_curved_sides_refuted; [left; split; [right; left; reflexivity|left; reflexivity]|apply P|apply P|].
    intros row i [<-|[]] Hi. cbn in Hi. do 3 (destruct i as [|i]; [reflexivity|]). lia.
  - unfold measure, quadrature. cbn -[Rplus Rmult Rminus Ropp Rdiv Rinv IZR]. field.
Qed.
