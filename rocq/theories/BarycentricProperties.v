(** C31, C32: points embedded in a domain. *)

From Coq Require Import ZArith Reals Lra Lia.
From Coquelicot Require Import Coquelicot.
From Coq Require Import List.
From Flocq Require Import Core.Raux.
From Verif Require Import GridGeoModel GridGeoSpec HashGridModel HashGridProofs ShapeModel ShapeSpec ShapeProofs ShapeFieldProofs
  ShapeGaussProofs LinAlg RectModel RectSpec RectProofs LinAlgProofs NewtonLocalProofs BarycentricModel BarycentricSpec
  BarycentricProofs.
Import ListNotations.
Open Scope R_scope.

(** C31: each point is given -1 and is then not a point of any element, or an element and local coordinates accepted by
    its containment test, whose position is the point: exactly, when the point is not within 1e-5 of the position of the
    origin of the local coordinates, and within 1e-5 otherwise.
    Missing for the full statement: exactness in this last case (see C31_exact_position_refuted). *)
Theorem C31_sound_partial : forall d points c, affine_domain d -> volumetric d ->
  Forall (fun p => length p = dim d) points -> embed d points = Some c ->
  length (barycentric_points c) = length points /\
  forall i p, nth_error points i = Some p -> exists id xi, nth_error (barycentric_points c) i = Some (id, xi) /\
    ((id = (-1)%Z /\ In i (outside_nodes c) /\ forall k, ~ point_of_element d k p) \/
     (~ In i (outside_nodes c) /\ exists k, (k < length (connectivity d))%nat /\ id = Z.of_nat k /\
      contains_local (kind d) xi 1e-10 = Some true /\
      distance_2 p (world_position d k xi) < 1e-5 * 1e-5 /\
      (1e-5 * 1e-5 <= distance_2 p (world_position d k (repeat 0 (CanonicalDimension (kind d)))) ->
       world_position d k xi = p))).
Proof.
  intros d points c HD HV HP H. destruct (embed_points d points c H) as (grid & HB & E & O).
  split; [rewrite E; apply map_length|]. intros i p Hi. rewrite E, nth_error_map, Hi. cbn [option_map].
  destruct (barycentric_point d grid p) as [id xi] eqn:Ebp. exists id, xi. split; [reflexivity|].
  assert (Hp : length p = dim d) by (apply (proj1 (Forall_forall _ _) HP); apply nth_error_In in Hi; exact Hi).
  destruct (barycentric_point_spec d HD grid p HB Hp) as [[A B]|(k & Hk & A & B & C)]; rewrite Ebp in *; cbn [fst snd] in *.
  - left. injection A as -> ->. split; [reflexivity|]. split; [|exact B]. apply O. exists p. rewrite Ebp. split; [exact Hi|]. reflexivity.
  - right. split.
    + intros Hin. apply O in Hin. destruct Hin as (p' & Hi' & Hneg). rewrite Hi in Hi'. injection Hi' as <-. rewrite Ebp in Hneg. cbn [fst] in Hneg. lia.
    + exists k. split; [exact Hk|]. split; [exact A|]. split; [exact C|]. rewrite tolerance_square.
      destruct (local_position d HD k p HV Hk Hp) as (_ & P1 & P2). rewrite <- B in P1, P2. split; assumption.
Qed.
Print Assumptions C31_sound_partial.

(** The list of outside nodes is exactly the list of the points given -1. *)
Theorem C31_outside_nodes : forall d points c i, affine_domain d ->
  Forall (fun p => length p = dim d) points -> embed d points = Some c ->
  (In i (outside_nodes c) <-> exists xi, nth_error (barycentric_points c) i = Some ((-1)%Z, xi)).
Proof.
  intros d points c i HD HP H. destruct (embed_points d points c H) as (grid & HB & E & O). rewrite O, E.
  rewrite nth_error_map. split.
  - intros (p & Hi & Hneg). rewrite Hi. cbn [option_map].
    assert (Hp : length p = dim d) by (apply (proj1 (Forall_forall _ _) HP); apply nth_error_In in Hi; exact Hi).
    destruct (barycentric_point_spec d HD grid p HB Hp) as [[A B]|(k & Hk & A & B & C)]; [|lia].
    rewrite A. eexists. reflexivity.
  - intros (xi & Hx). destruct (nth_error points i) as [p|] eqn:Hi; [|discriminate]. cbn [option_map] in Hx. exists p.
    split; [reflexivity|]. injection Hx as Hx. rewrite Hx. reflexivity.
Qed.
Print Assumptions C31_outside_nodes.

(** Interpolation: rows of outside points are left as they were, the others receive sum_k L_k(xi) value(node k). *)
Theorem C31_interpolate : forall d points c nb_cols values old, affine_domain d ->
  Forall (fun p => length p = dim d) points -> embed d points = Some c ->
  length values = length (positions d) -> length old = length points ->
  exists out, interpolate_field d c nb_cols values old = Some out /\ length out = length points /\
    forall i id xi, nth_error (barycentric_points c) i = Some (id, xi) ->
      nth_error out i =
        if (id <? 0)%Z then nth_error old i
        else Some (map (fun col => Rsum (map2 (fun node l => nth col (nth node values []) 0 * l)
                                              (nth (Z.to_nat id) (connectivity d) []) (L (kind d) xi)))
                       (seq 0 nb_cols)).
Proof.
  intros d points c nb_cols values old HD HP H HV HO.
  pose proof (C31_outside_nodes d points c) as ON. specialize (fun i => ON i HD HP H).
  destruct (embed_points d points c H) as (grid & HB & E & O). unfold interpolate_field.
  assert (LB : length (barycentric_points c) = length points) by (rewrite E; apply map_length).
  rewrite HV, HO, LB, !Nat.eqb_refl. cbn [negb]. eexists. split; [reflexivity|].
  split; [rewrite LinAlgProofs.map2_length; [exact LB|exact (eq_trans LB (eq_sym HO))]|].
  intros i id xi Hi.
  set (f := fun bp o => if (negb (Nat.eqb (length (outside_nodes c)) 0) && (fst bp <? 0)%Z)%bool then o else interpolate_at d nb_cols values bp).
  assert (N : forall l m i (b : barycentric_point_t), length l = length m -> nth_error l i = Some b ->
     nth_error (map2 f l m) i = option_map (f b) (nth_error m i)).
  { clear. induction l as [|a l IH]; intros [|o m] [|i] b HL Hb; try discriminate; simpl in *.
    - injection Hb as ->. reflexivity.
    - apply IH; congruence. }
  rewrite (N _ old i (id, xi) (eq_trans LB (eq_sym HO)) Hi). unfold f. cbn [fst].
  destruct (nth_error old i) as [o|] eqn:Eo.
  2: { exfalso. apply nth_error_None in Eo. assert (i < length (barycentric_points c))%nat by (apply nth_error_Some; congruence). lia. }
  cbn [option_map]. destruct (id <? 0)%Z eqn:Eid.
  - assert (Hin : In i (outside_nodes c)).
    { apply O. rewrite E, nth_error_map in Hi. destruct (nth_error points i) as [p|]; [|discriminate]. exists p. split; [reflexivity|].
      cbn [option_map] in Hi. injection Hi as Hi. rewrite Hi. cbn [fst]. apply Z.ltb_lt. exact Eid. }
    destruct (outside_nodes c); [contradiction|]. reflexivity.
  - rewrite Bool.andb_false_r. f_equal. unfold interpolate_at, interpolate. cbn [fst snd]. apply map_ext. intros col. f_equal.
    generalize (nth (Z.to_nat id) (connectivity d) []), (L (kind d) xi). induction l as [|a l IH]; intros [|b m]; simpl; try reflexivity.
    f_equal. apply IH.
Qed.
Print Assumptions C31_interpolate.

(** In particular the positions of the nodes interpolate to the positions of the embedded points, with the same
    exactness as above. *)
Theorem C31_interpolate_positions_partial : forall d points c old, affine_domain d -> volumetric d ->
  Forall (fun p => length p = dim d) points -> embed d points = Some c -> length old = length points ->
  exists out, interpolate_field d c (dim d) (positions d) old = Some out /\
    forall i p, nth_error points i = Some p -> ~ In i (outside_nodes c) ->
      exists q k, nth_error out i = Some q /\ (k < length (connectivity d))%nat /\ distance_2 p q < 1e-5 * 1e-5 /\
        (1e-5 * 1e-5 <= distance_2 p (world_position d k (repeat 0 (CanonicalDimension (kind d)))) -> q = p).
Proof.
  intros d points c old HD HV HP H HO.
  destruct (C31_interpolate d points c (dim d) (positions d) old HD HP H eq_refl HO) as (out & E1 & E2 & E3).
  exists out. split; [exact E1|]. intros i p Hi Hno.
  destruct (C31_sound_partial d points c HD HV HP H) as (_ & S). destruct (S i p Hi) as (id & xi & Hb & [(_ & Hin & _)|(_ & k & Hk & -> & _ & P1 & P2)]).
  { contradiction. }
  exists (world_position d k xi), k. split; [|split; [exact Hk|split; assumption]].
  rewrite (E3 i _ xi Hb). rewrite (proj2 (Z.ltb_ge _ _)) by lia. f_equal. unfold world_position, world_coordinates, interpolate.
  apply map_ext. intros col. f_equal. unfold elements. rewrite Nat2Z.id.
  rewrite (nth_indep _ [] (nodes_of_element d [])) by (rewrite map_length; exact Hk). rewrite map_nth. unfold nodes_of_element.
  generalize (nth k (connectivity d) []), (L (kind d) xi). induction l as [|a l IH]; intros [|b m]; simpl; try reflexivity.
  f_equal. apply IH.
Qed.
Print Assumptions C31_interpolate_positions_partial.

(** C32: a point of some element, its boundary included, is never reported as outside. *)
Theorem C32_complete : forall d points c i p k, affine_domain d ->
  Forall (fun p => length p = dim d) points -> embed d points = Some c ->
  nth_error points i = Some p -> point_of_element d k p ->
  ~ In i (outside_nodes c) /\
  exists j xi, (j < length (connectivity d))%nat /\ nth_error (barycentric_points c) i = Some (Z.of_nat j, xi).
Proof.
  intros d points c i p k HD HP H Hi Hk. destruct (embed_points d points c H) as (grid & HB & E & O).
  assert (Hp : length p = dim d) by (apply (proj1 (Forall_forall _ _) HP); apply nth_error_In in Hi; exact Hi).
  destruct (barycentric_point_spec d HD grid p HB Hp) as [[A B]|(j & Hj & A & B & C)].
  - exfalso. exact (B k Hk).
  - split.
    + intros Hin. apply O in Hin. destruct Hin as (p' & Hi' & Hneg). rewrite Hi in Hi'. injection Hi' as <-. lia.
    + exists j, (snd (barycentric_point d grid p)). split; [exact Hj|]. rewrite E, nth_error_map, Hi. cbn [option_map]. f_equal.
      rewrite <- A. destruct (barycentric_point d grid p). reflexivity.
Qed.
Print Assumptions C32_complete.

(** The container is built for every domain that is not empty. *)
Theorem C32_built : forall d points, connectivity d <> [] <-> exists c, embed d points = Some c.
Proof.
  intros d points. unfold embed, build. split.
  - intros H. destruct (connectivity d); [congruence|]. eexists. reflexivity.
  - intros (c & H) C. rewrite C in H. discriminate.
Qed.
Print Assumptions C32_built.

(** ** Concrete cases *)
Lemma affine_simplices : forall d, In (kind d) [Segment_Linear; Triangle_Linear; Tetrahedron_Linear] ->
  Forall (fun p => length p = dim d) (positions d) ->
  Forall (fun row => length row = NumberOfNodes (kind d) /\ Forall (fun i => (i < length (positions d))%nat) row) (connectivity d) ->
  Forall (fun nodes => independent (CanonicalDimension (kind d)) (simplex_directions (dim d) (kind d) nodes)) (elements d) ->
  affine_domain d.
Proof.
  intros d HK HP HC HI.
  assert (HE : Forall (ShapeSpec.table (NumberOfNodes (kind d)) (dim d)) (elements d)).
  { apply Forall_forall. intros nodes H. unfold elements in H. apply in_map_iff in H. destruct H as (row & <- & Hr).
    apply (proj1 (Forall_forall _ _) HC) in Hr. destruct Hr as [R1 R2]. unfold nodes_of_element. split; [rewrite map_length; exact R1|].
    apply Forall_forall. intros p Hp. apply in_map_iff in Hp. destruct Hp as (i & <- & Hi).
    apply (proj1 (Forall_forall _ _) HP). apply nth_In. apply (proj1 (Forall_forall _ _) R2). exact Hi. }
  split; [|split; [exact HP|split; [exact HC|]]].
  - destruct HK as [K|[K|[K|[]]]]; unfold linear_type; simpl; auto.
  - apply Forall_forall. intros nodes Hn. exists (simplex_origin (dim d) (kind d) nodes), (simplex_directions (dim d) (kind d) nodes). split.
    + apply linear_simplices_affine; [|exact (proj1 (Forall_forall _ _) HE nodes Hn)].
      destruct HK as [K|[K|[K|[]]]]; auto.
    + exact (proj1 (Forall_forall _ _) HI nodes Hn).
Qed.

Example C31_C32_witness : affine_domain unit_square_triangles /\ volumetric unit_square_triangles /\
  point_of_element unit_square_triangles 1 [1/4; 3/4] /\ point_of_element unit_square_triangles 0 [1/2; 1/2].
Proof.
  split; [|split; [reflexivity|split]].
  - apply affine_simplices.
    + right. left. reflexivity.
    + repeat constructor.
    + repeat constructor.
    + repeat (apply Forall_cons || apply Forall_nil); unfold independent, det, gram, simplex_directions, LinAlg.column; cbn; lra.
  - split; [simpl; lia|]. exists [1/4; 1/2]. split; [split; [reflexivity|cbn; split; [repeat (apply Forall_cons || apply Forall_nil); lra|lra]]|].
    unfold world_position, world_coordinates, interpolate. cbn. f_equal; [lra|]. f_equal. lra.
  - split; [simpl; lia|]. exists [0; 1/2]. split; [split; [reflexivity|cbn; split; [repeat (apply Forall_cons || apply Forall_nil); lra|lra]]|].
    unfold world_position, world_coordinates, interpolate. cbn. f_equal; [lra|]. f_equal. lra.
Qed.

(** ** Findings *)

(** A domain with one element: the only candidate. *)
Lemma single_element : forall d row p xi c, affine_domain d -> connectivity d = [row] -> length p = dim d ->
  in_bounding_box (nodes_of_element d row) p ->
  local_coordinates (dim d) (kind d) (nodes_of_element d row) p = xi -> contains_local (kind d) xi 1e-10 = Some true ->
  embed d [p] = Some c -> barycentric_points c = [(0%Z, xi)] /\ outside_nodes c = [].
Proof.
  intros d row p xi c HD Hrow Hp Hbox EL CL Hc.
  assert (HC : connectivity d <> []) by (rewrite Hrow; discriminate).
  assert (EE : elements d = [nodes_of_element d row]) by (unfold elements; rewrite Hrow; reflexivity).
  destruct (embed_points d [p] c Hc) as (grid & HB & E & O).
  assert (BP : barycentric_point d grid p = (0%Z, xi)).
  { rewrite (build_spec d HC) in HB. injection HB as <-. unfold barycentric_point. cbn [fst snd].
    set (h := maxCoeff (H_mean d)). set (ids := get h (run h (BarycentricProofs.history d)) p).
    assert (Hin : In 0%Z ids).
    { apply (hash_complete (dim d) _ (BarycentricProofs.history d) _ (nodes_of_element d row)).
      - apply (cell_size_positive d HD HC).
      - apply (history_valid d HD).
      - exact Hp.
      - unfold BarycentricProofs.history. rewrite EE, Hrow. left. reflexivity.
      - exact Hbox. }
    destruct (first_containing_spec d p ids) as [[_ B]|(A & B & _)].
    - exfalso. apply (B 0%Z Hin). rewrite EE. cbn [Z.to_nat nth]. rewrite EL. exact CL.
    - destruct (candidates d HD p _ HC Hp A) as (i & Hi & Ei). rewrite Hrow in Hi. simpl in Hi. assert (i = 0)%nat by lia. subst i.
      rewrite Ei, EE in B. cbn [Z.of_nat Z.to_nat nth] in B. rewrite EL in B.
      destruct (first_containing _ _ _) as [id xi']. cbn [fst snd] in *. subst. reflexivity. }
  split; [rewrite E; simpl; rewrite BP; reflexivity|].
  destruct (outside_nodes c) as [|i l] eqn:EO; [reflexivity|exfalso]. destruct (proj1 (O i) (or_introl eq_refl)) as (q & Hq & Hneg).
  destruct i as [|i]; [|destruct i; discriminate]. simpl in Hq. injection Hq as <-. rewrite BP in Hneg. simpl in Hneg. lia.
Qed.

(** A point closer than 1e-5 to the first node of a triangle is moved to this node, here from outside. *)
Theorem C31_exact_position_refuted : exists d p c, affine_domain d /\ volumetric d /\ embed d [p] = Some c /\
  (forall k, ~ point_of_element d k p) /\ outside_nodes c = [] /\
  exists k xi, barycentric_points c = [(Z.of_nat k, xi)] /\ world_position d k xi <> p.
Proof.
  set (d := {| dim := 2; kind := Triangle_Linear; positions := [[0; 0]; [1; 0]; [-1; 1]]; connectivity := [[0%nat; 1%nat; 2%nat]] |}).
  set (p := [-1e-6; 0]).
  assert (HD : affine_domain d).
  { apply affine_simplices; [right; left; reflexivity|repeat constructor|repeat constructor|].
    repeat (apply Forall_cons || apply Forall_nil); unfold independent, det, gram, simplex_directions, LinAlg.column; cbn; lra. }
  assert (HC : connectivity d <> []) by discriminate.
  destruct (proj1 (C32_built d [p]) HC) as (c & Hc).
  assert (EL : local_coordinates 2 Triangle_Linear [[0; 0]; [1; 0]; [-1; 1]] p = [0; 0]).
  { unfold local_coordinates, local_coordinates_from. rewrite residual_is_distance. rewrite Rlt_bool_true; [reflexivity|].
    unfold squared_distance, world_coordinates, interpolate, p. cbn. lra. }
  assert (CL : contains_local Triangle_Linear [0; 0] 1e-10 = Some true).
  { apply contains_closed; try reflexivity; try discriminate; try lra. split; [reflexivity|]. cbn.
    split; [repeat (apply Forall_cons || apply Forall_nil); lra|lra]. }
  assert (Hp : length p = dim d) by reflexivity.
  exists d, p, c. split; [exact HD|]. split; [reflexivity|]. split; [exact Hc|]. split.
  { intros k (Hk & xi & (Lx & Hx) & E). simpl in Hk. assert (k = 0)%nat by lia. subst k. cbn in Lx. apply len2 in Lx. destruct Lx as (u & v & ->).
    cbn in Hx. destruct Hx as [Hx1 _]. inversion Hx1; subst. unfold world_position, world_coordinates, interpolate, p in E. cbn in E. injection E as E1 E2. lra. }
  assert (Hbox : in_bounding_box (nodes_of_element d [0%nat; 1%nat; 2%nat]) p).
  { intros [|[|[|k]]] x Hx; simpl in Hx; try discriminate; injection Hx as <-.
    + split; [exists [-1; 1], (-1)|exists [1; 0], 1]; simpl; repeat split; auto; lra.
    + split; [exists [0; 0], 0|exists [-1; 1], 1]; simpl; repeat split; auto; lra. }
  destruct (single_element d _ p [0; 0] c HD eq_refl Hp Hbox EL CL Hc) as [B1 B2]. split; [exact B2|].
  exists 0%nat, [0; 0]. split; [exact B1|]. unfold world_position, world_coordinates, interpolate, p. cbn.
  intros C. injection C as C1 C2. lra.
Qed.
Print Assumptions C31_exact_position_refuted.

(** Elements that do not fill the space, here a triangle in space: a point above the triangle is not reported as outside,
    its position is projected. *)
Theorem C31_surface_refuted : exists d p c, affine_domain d /\ embed d [p] = Some c /\
  (forall k, ~ point_of_element d k p) /\ outside_nodes c = [] /\
  exists k xi, barycentric_points c = [(Z.of_nat k, xi)] /\ 1/4 <= distance_2 p (world_position d k xi).
Proof.
  set (nodes := [[0; 0; 0]; [2; 0; 0]; [0; 2; 2]]).
  set (d := {| dim := 3; kind := Triangle_Linear; positions := nodes; connectivity := [[0%nat; 1%nat; 2%nat]] |}).
  set (p := [1/2; 0; 1]).
  assert (HD : affine_domain d).
  { apply affine_simplices; [right; left; reflexivity|repeat constructor|repeat constructor|].
    repeat (apply Forall_cons || apply Forall_nil); unfold independent, det, gram, simplex_directions, LinAlg.column; cbn; lra. }
  assert (HC : connectivity d <> []) by discriminate.
  destruct (proj1 (C32_built d [p]) HC) as (c & Hc).
  assert (HN : ShapeSpec.table (NumberOfNodes Triangle_Linear) 3 nodes) by (split; [reflexivity|repeat constructor]).
  assert (ST : forall xi, length xi = 2%nat -> newton_step 3 Triangle_Linear nodes p xi = [1/4; 1/4]).
  { intros xi Hx. apply len2 in Hx. destruct Hx as (u & v & ->). unfold newton_step.
    rewrite (jacobian_affine 3 Triangle_Linear nodes _ _ [u; v] HN (linear_simplices_affine 3 Triangle_Linear nodes (or_intror (or_introl eq_refl)) HN) eq_refl).
    unfold simplex_directions, world_coordinates, interpolate, p, nodes. cbn -[Rdiv inverse]. unfold inverse, det. cbn -[Rdiv].
    f_equal; [field|f_equal; field]. }
  assert (EL : local_coordinates 3 Triangle_Linear nodes p = [1/4; 1/4]).
  { unfold local_coordinates, local_coordinates_from. rewrite residual_is_distance. rewrite Rlt_bool_false.
    - apply (newton_loop_last_step 3 Triangle_Linear nodes p _ _ (fun xi => xi = [1/4; 1/4])); [|reflexivity].
      intros xi Hx. rewrite (ST xi Hx). split; reflexivity.
    - unfold squared_distance, world_coordinates, interpolate, p, nodes. cbn. lra. }
  assert (CL : contains_local Triangle_Linear [1/4; 1/4] 1e-10 = Some true).
  { apply contains_closed; try reflexivity; try discriminate; try lra. split; [reflexivity|]. cbn.
    split; [repeat (apply Forall_cons || apply Forall_nil); lra|lra]. }
  assert (Hbox : in_bounding_box (nodes_of_element d [0%nat; 1%nat; 2%nat]) p).
  { intros [|[|[|[|k]]]] x Hx; simpl in Hx; try discriminate; injection Hx as <-.
    + split; [exists [0; 0; 0], 0|exists [2; 0; 0], 2]; simpl; repeat split; auto; lra.
    + split; [exists [0; 0; 0], 0|exists [0; 0; 0], 0]; simpl; repeat split; auto; lra.
    + split; [exists [0; 0; 0], 0|exists [0; 2; 2], 2]; simpl; repeat split; auto; lra. }
  destruct (single_element d _ p [1/4; 1/4] c HD eq_refl eq_refl Hbox EL CL Hc) as [B1 B2].
  exists d, p, c. split; [exact HD|]. split; [exact Hc|]. split.
  { intros k (Hk & xi & (Lx & _) & E). simpl in Hk. assert (k = 0)%nat by lia. subst k. cbn in Lx. apply len2 in Lx. destruct Lx as (u & v & ->).
    unfold world_position, world_coordinates, interpolate, p, nodes in E. cbn in E. injection E as E1 E2 E3. lra. }
  split; [exact B2|]. exists 0%nat, [1/4; 1/4]. split; [exact B1|].
  unfold distance_2, world_position, world_coordinates, interpolate, p, nodes. cbn. lra.
Qed.
Print Assumptions C31_surface_refuted.
