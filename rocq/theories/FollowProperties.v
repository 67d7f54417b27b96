(** C106: mapped nodes follow their parent. *)

From Coq Require Import ZArith Reals Lra Lia.
From Coquelicot Require Import Coquelicot.
From Coq Require Import List Arith Bool Permutation.
From Flocq Require Import Core.Raux.
From Verif Require Import GridGeoModel GridGeoSpec HashGridModel HashGridProofs ShapeModel ShapeSpec ShapeProofs ShapeFieldProofs ShapeGaussProofs LinAlg LinAlgProofs RectModel RectSpec RectProofs NewtonLocalProofs BarycentricModel BarycentricSpec BarycentricProofs BarycentricProperties
  SparseModel SparseProofs Sums MappingModel MappingSpec MappingProofs MappingProperties.
From Verif Require SurfaceProofs SurfaceProofs2.
From Verif Require Import FollowSpec FollowProofs FollowProofs2.
Import ListNotations.
Open Scope R_scope.

(** When the parent is moved further by any affine map (a translation, a rotation, a uniform strain...) from any deformed position x,
    the mapped nodes are moved by the same map; so are the velocities.  For every element type, whatever the mapped nodes. *)
Theorem C106_affine : forall d rest m D M b x out0, well_formed d -> init d rest = Some m -> usable m = true -> square_matrix D M -> length b = D ->
  field (length (positions d)) D x -> length out0 = length rest ->
  exists y, apply m D x out0 = Some y /\ applyJ m D x out0 = Some y /\
    apply m D (map (affine_map M b) x) out0 = Some (map (affine_map M b) y) /\ applyJ m D (map (affine_map M b) x) out0 = Some (map (affine_map M b) y).
Proof. intros d rest m D M b x out0 WF HI U SM Hb Hx Ho. destruct (follows_affine d rest m D M b x out0 WF HI U SM Hb Hx Ho) as (y & A & B & _ & C & E). exists y. auto. Qed.
Print Assumptions C106_affine.

(** A body of simplices, quadrilaterals or hexahedra with straight parallel edges that is in its rest position moved by an affine map has
    each mapped node at its own rest position moved by this map.
    Missing: the mapped nodes that are closer than 1e-5 to the local origin of an element (C106_rest_partial, C106_origin_refuted). *)
Theorem C106_follows_partial : forall d rest M b out0, affine_domain d -> volumetric d -> connectivity d <> [] -> square_matrix (dim d) M -> length b = dim d -> length out0 = length rest ->
  Forall (fun p => length p = dim d /\ away_from_local_origins d p /\ exists k, point_of_element d k p) rest ->
  exists m, init d rest = Some m /\ apply m (dim d) (map (affine_map M b) (positions d)) out0 = Some (map (affine_map M b) rest).
Proof.
  intros d rest M b out0 HD HV HC SM Hb Ho F.
  assert (HP : Forall (fun p => length p = dim d) rest) by (eapply Forall_impl; [|exact F]; intros p (A & _); exact A).
  assert (HE : Forall (fun p => exists k, point_of_element d k p) rest) by (eapply Forall_impl; [|exact F]; intros p (_ & _ & A); exact A).
  destruct (C61_usable d rest HD HC HP HE) as (m & HI & U & WF). exists m. split; [exact HI|].
  assert (FP : field (length (positions d)) (dim d) (positions d)) by (split; [reflexivity|apply HD]).
  destruct (follows_affine d rest m (dim d) M b (positions d) out0 WF HI U SM Hb FP Ho) as (y & A & _ & Fy & B & _). rewrite B. do 2 f_equal.
  rewrite (proj2 (applied d rest m (dim d) (positions d) out0 HI U eq_refl Ho)) in A. injection A as <-. destruct (init_usable d rest m HI U) as (_ & _ & El & _).
  apply (nth_ext _ _ [] []); [rewrite map_length; exact El|]. intros i Hi. rewrite map_length, El in Hi. destruct (nth_error rest i) as [p|] eqn:Ep; [|apply nth_error_None in Ep; lia].
  destruct (proj1 (Forall_forall _ _) F p (nth_error_In _ _ Ep)) as (_ & Aw & _).
  destruct (located d rest m i p HD HV HP HI U Ep Aw) as (k & xi & Bp & Hk & Lx & CL & W).
  rewrite (nth_error_nth _ i [] (map_nth_error (interpolate_at d (dim d) (positions d)) _ _ Bp)), (nth_error_nth _ i [] Ep), <- W.
  unfold interpolate_at, world_position, world_coordinates. cbn [fst snd]. rewrite Nat2Z.id, (element_row d k Hk). reflexivity.
Qed.
Print Assumptions C106_follows_partial.

(** The other mapped nodes start at less than 1e-5 of their rest position. *)
Theorem C106_rest_partial : forall d rest out0, affine_domain d -> volumetric d -> connectivity d <> [] -> length out0 = length rest ->
  Forall (fun p => length p = dim d /\ exists k, point_of_element d k p) rest ->
  exists m y, init d rest = Some m /\ apply m (dim d) (positions d) out0 = Some y /\ length y = length rest /\
    forall i p, nth_error rest i = Some p -> exists q, nth_error y i = Some q /\ distance_2 p q < 1e-5 * 1e-5.
Proof.
  intros d rest out0 HD HV HC Ho F.
  assert (HP : Forall (fun p => length p = dim d) rest) by (eapply Forall_impl; [|exact F]; intros p (A & _); exact A).
  assert (HE : Forall (fun p => exists k, point_of_element d k p) rest) by (eapply Forall_impl; [|exact F]; intros p (_ & A); exact A).
  destruct (C61_usable d rest HD HC HP HE) as (m & HI & U & WF). destruct (init_usable d rest m HI U) as (Ed & Eo & El & _).
  assert (exists c, embed d rest = Some c /\ m_container m = c) as (c & Ec & Em).
  { unfold init in HI. destruct (embed d rest) as [c|]; [|discriminate]. exists c. split; [reflexivity|]. injection HI as <-. destruct (outside_nodes c); reflexivity. }
  destruct (C31_interpolate_positions_partial d rest c out0 HD HV HP Ec Ho) as (out & E1 & E2). exists m, out. split; [exact HI|].
  pose proof (proj2 (applied d rest m (dim d) (positions d) out0 HI U eq_refl Ho)) as A.
  assert (B : apply m (dim d) (positions d) out0 = Some out) by (unfold apply; rewrite U, Ed, Em; exact E1). split; [exact B|]. rewrite B in A. injection A as ->. split; [rewrite map_length; exact El|].
  intros i p Hi. rewrite Em in Eo. destruct (E2 i p Hi ltac:(rewrite Eo; intros [])) as (q & k & Q1 & _ & Q2 & _). exists q. auto.
Qed.
Print Assumptions C106_rest_partial.

(** The moment of the mapped forces is not lost either: with C61_total_force, the parent receives a system of forces equivalent to the
    one applied to the mapped nodes, in every deformed position x. *)
Theorem C106_moment : forall d rest m x y f old out0, well_formed d -> init d rest = Some m -> usable m = true ->
  field (length (positions d)) 3 x -> field (length rest) 3 f -> field (length (positions d)) 3 old -> length out0 = length rest -> apply m 3 x out0 = Some y ->
  moment x (applyJT m 3 f old) = vadd (moment x old) (moment y f).
Proof.
  intros d rest m x y f old out0 WF HI U Hx Hf Ho L0 HY.
  destruct (init_usable d rest m HI U) as (_ & _ & _ & Er & Ec & _).
  assert (FJ : field (length (positions d)) 3 (applyJT m 3 f old)).
  { unfold applyJT. rewrite U. split; [rewrite map_length, seq_length; apply Ho|]. apply Forall_forall. intros v Hv. apply in_map_iff in Hv. destruct Hv as (j & <- & _). reflexivity. }
  assert (LT : forall a c, length (moment a c) = 3%nat) by reflexivity.
  apply (nth_ext _ _ 0 0); [rewrite (SurfaceProofs.vadd_length _ _ 3) by apply LT; apply LT|]. intros k Hk. rewrite LT in Hk.
  rewrite SurfaceProofs.vadd_nth by reflexivity.
  destruct (follows_affine d rest m 3 (e_cross k) (repeat 0 3) x out0 WF HI U (e_cross_square k) eq_refl Hx L0) as (y' & A & _ & Fy & _ & B). rewrite HY in A. injection A as <-.
  rewrite (affine_zero_all 3 _ _ x (e_cross_square k) Hx), (affine_zero_all 3 _ _ y (e_cross_square k) Fy) in B.
  rewrite (moment_power _ x _ k Hx FJ Hk), (moment_power _ x old k Hx Ho Hk), (moment_power _ y f k Fy Hf Hk).
  apply (C61_power d rest m 3 _ f old out0 _ WF HI U); try assumption.
  rewrite <- (affine_zero_all 3 _ _ x (e_cross_square k) Hx). apply affine_field; [apply e_cross_square|reflexivity|exact Hx].
Qed.
Print Assumptions C106_moment.

(** More generally the power of the mapped forces in every affine velocity field p |-> M p + b of the mapped nodes is the one of the forces
    received by the parent in the same field: stresses (virials) are transferred as well. *)
Theorem C106_affine_power : forall d rest m D M b x y f old out0, well_formed d -> init d rest = Some m -> usable m = true -> square_matrix D M -> length b = D ->
  field (length (positions d)) D x -> field (length rest) D f -> field (length (positions d)) D old -> length out0 = length rest -> apply m D x out0 = Some y ->
  power (applyJT m D f old) (map (affine_map M b) x) = power old (map (affine_map M b) x) + power f (map (affine_map M b) y).
Proof.
  intros d rest m D M b x y f old out0 WF HI U SM Hb Hx Hf Ho L0 HY. destruct (follows_affine d rest m D M b x out0 WF HI U SM Hb Hx L0) as (y' & A & _ & _ & _ & B). rewrite HY in A. injection A as <-.
  apply (C61_power d rest m D _ f old out0 _ WF HI U); try assumption. apply affine_field; assumption.
Qed.
Print Assumptions C106_affine_power.

(** Neighbours agree on their common face: a point of the common face of two simplices gets the same value from both, for every field. *)
Theorem C106_seam : forall d D values k k' xi xi' p, affine_domain d -> In (kind d) [Segment_Linear; Triangle_Linear; Tetrahedron_Linear] ->
  (k < length (connectivity d))%nat -> (k' < length (connectivity d))%nat -> length xi = CanonicalDimension (kind d) -> length xi' = CanonicalDimension (kind d) ->
  world_position d k xi = p -> world_position d k' xi' = p -> on_common_face d k k' p ->
  interpolate_at d D values (Z.of_nat k, xi) = interpolate_at d D values (Z.of_nat k', xi').
Proof. exact seam. Qed.
Print Assumptions C106_seam.

(** Hence, in a conforming mesh of simplices, nothing that is transferred depends on the order of the elements: neither the mapped positions and
    velocities nor the forces received by the parent, although the nodes of the common faces may be given to other elements.
    Missing: quadrilaterals and hexahedra, mapped nodes closer than 1e-5 to the local origin of an element. *)
Theorem C106_order_partial : forall d d' rest, affine_domain d -> volumetric d -> connectivity d <> [] -> In (kind d) [Segment_Linear; Triangle_Linear; Tetrahedron_Linear] -> reordered d d' ->
  Forall (fun p => length p = dim d /\ away_from_local_origins d p /\ conforming_at d p /\ exists k, point_of_element d k p) rest ->
  exists m m', init d rest = Some m /\ init d' rest = Some m' /\ usable m = true /\ usable m' = true /\
    forall D x f old out0, field (length (positions d)) D x -> field (length rest) D f -> field (length (positions d)) D old -> length out0 = length rest ->
      apply m' D x out0 = apply m D x out0 /\ applyJ m' D x out0 = applyJ m D x out0 /\ applyJT m' D f old = applyJT m D f old.
Proof.
  intros d d' rest HD HV HC HK RO F. pose proof (reordered_affine d d' RO HD) as HD'.
  assert (F0 : Forall (fun p => length p = dim d /\ away_from_local_origins d p /\ conforming_at d p) rest) by (eapply Forall_impl; [|exact F]; intros p (A & B & C & _); auto).
  assert (HP : Forall (fun p => length p = dim d) rest) by (eapply Forall_impl; [|exact F]; intros p (A & _); exact A).
  assert (HE : Forall (fun p => exists k, point_of_element d k p) rest) by (eapply Forall_impl; [|exact F]; intros p (_ & _ & _ & A); exact A).
  destruct (C61_usable d rest HD HC HP HE) as (m & HI & U & WF).
  assert (HC' : connectivity d' <> []) by (intros E; apply HC; destruct RO as (_ & _ & _ & P); rewrite E in P; apply Permutation_nil; apply Permutation_sym; exact P).
  assert (HP' : Forall (fun p => length p = dim d') rest) by (rewrite (proj1 RO); exact HP).
  assert (HE' : Forall (fun p => exists k, point_of_element d' k p) rest).
  { eapply Forall_impl; [|exact HE]. intros p (k & Hk & xi & Hxi & E). destruct (reordered_row d' d k (reordered_sym d d' RO) Hk) as (j & Hj & _ & W & _). exists j. split; [exact Hj|]. exists xi. rewrite (proj1 (proj2 RO)). split; [exact Hxi|]. rewrite <- W. exact E. }
  destruct (C61_usable d' rest HD' HC' HP' HE') as (m' & HI' & U' & WF'). exists m, m'. repeat (split; [assumption|]). intros D x f old out0 Fx Ff Fo Lo.
  assert (Lx : length x = length (positions d)) by apply Fx. assert (Lx' : length x = length (positions d')) by (rewrite (proj1 (proj2 (proj2 RO))); exact Lx).
  destruct (applied d rest m D x out0 HI U Lx Lo) as [A B]. destruct (applied d' rest m' D x out0 HI' U' Lx' Lo) as [A' B']. rewrite A, B, A', B'.
  rewrite (order_applied d d' rest m m' D x HD HV HK RO F0 HI HI' U U'). split; [reflexivity|]. split; [reflexivity|].
  destruct (init_usable d rest m HI U) as (_ & _ & _ & Er & _). destruct (init_usable d' rest m' HI' U') as (_ & _ & _ & Er' & _).
  unfold applyJT. rewrite U, U', Er, Er'. apply map_ext_in. intros j Hj. apply in_seq in Hj. apply map_ext. intros c. f_equal. apply Rsum_ext. intros i Hi. apply in_seq in Hi.
  rewrite (order_coeff d d' rest m m' i j HD HV HK RO F0 HI HI' U U'); [reflexivity|lia|]. rewrite <- (proj1 Fo). lia.
Qed.
Print Assumptions C106_order_partial.

(** A mapped node inside of an element but close to its first node is moved onto this node: it then follows the node instead of the body, and the
    error grows with the deformation. *)
Theorem C106_origin_refuted : exists d p m, affine_domain d /\ volumetric d /\ init d [p] = Some m /\ usable m = true /\ point_of_element d 0 p /\
  forall a out0, length out0 = 1%nat -> apply m 2 (map (affine_map [[a; 0]; [0; a]] [0; 0]) (positions d)) out0 = Some [[0; 0]] /\ affine_map [[a; 0]; [0; a]] [0; 0] p = [a * 1e-6; a * 1e-6].
Proof.
  set (d := {| dim := 2; kind := Triangle_Linear; positions := [[0; 0]; [1; 0]; [0; 1]]; connectivity := [[0%nat; 1%nat; 2%nat]] |}).
  set (p := [1e-6; 1e-6]).
  assert (HD : affine_domain d).
  { apply affine_simplices; [right; left; reflexivity|repeat constructor|repeat constructor|].
    repeat (apply Forall_cons || apply Forall_nil); unfold independent, det, gram, simplex_directions, LinAlg.column; cbn; lra. }
  assert (HC : connectivity d <> []) by discriminate.
  destruct (proj1 (C32_built d [p]) HC) as (c & Hc).
  assert (EL : local_coordinates 2 Triangle_Linear [[0; 0]; [1; 0]; [0; 1]] p = [0; 0]).
  { unfold local_coordinates, local_coordinates_from. rewrite residual_is_distance. rewrite Rlt_bool_true; [reflexivity|].
    unfold squared_distance, world_coordinates, interpolate, p. cbn. lra. }
  assert (CL : contains_local Triangle_Linear [0; 0] 1e-10 = Some true).
  { apply contains_closed; try reflexivity; try discriminate; try lra. split; [reflexivity|]. cbn.
    split; [repeat (apply Forall_cons || apply Forall_nil); lra|lra]. }
  assert (Hp : length p = dim d) by reflexivity.
  assert (Hbox : in_bounding_box (nodes_of_element d [0%nat; 1%nat; 2%nat]) p).
  { intros [|[|[|k]]] x Hx; simpl in Hx; try discriminate; injection Hx as <-.
    + split; [exists [0; 0], 0|exists [1; 0], 1]; simpl; repeat split; auto; lra.
    + split; [exists [0; 0], 0|exists [0; 1], 1]; simpl; repeat split; auto; lra. }
  destruct (single_element d _ p [0; 0] c HD eq_refl Hp Hbox EL CL Hc) as [B1 B2].
  assert (HI : init d [p] = Some {| m_domain := d; m_container := c; J_rows := 1; J_cols := 3; J_entries := mapping_entries d c |}) by (unfold init; rewrite Hc, B2; reflexivity).
  exists d, p. eexists. split; [exact HD|]. split; [reflexivity|]. split; [exact HI|]. split; [unfold usable; cbn [m_container]; rewrite B2; reflexivity|]. split.
  { split; [simpl; lia|]. exists p. split; [split; [reflexivity|cbn; split; [repeat (apply Forall_cons || apply Forall_nil); lra|lra]]|].
    unfold world_position, world_coordinates, interpolate, p. cbn. f_equal; [lra|]. f_equal. lra. }
  intros a out0 Lo. split.
  - rewrite (proj2 (applied d [p] _ 2 (map (affine_map [[a; 0]; [0; a]] [0; 0]) (positions d)) out0 HI ltac:(unfold usable; cbn [m_container]; rewrite B2; reflexivity) eq_refl Lo)). cbn [m_container]. rewrite B1. unfold interpolate_at, interpolate. cbn. f_equal. f_equal. f_equal; [lra|]. f_equal. lra.
  - unfold affine_map, matvec, vadd, vdot, p. cbn. f_equal; [lra|]. f_equal. lra.
Qed.
Print Assumptions C106_origin_refuted.

(** A node of the diagonal of the unit square and one inside of a triangle meet all the hypotheses, and so do the two orders of the triangles. *)
Definition other_order : domain := {| dim := 2; kind := Triangle_Linear; positions := [[0; 0]; [1; 0]; [1; 1]; [0; 1]]; connectivity := [[0%nat; 2%nat; 3%nat]; [0%nat; 1%nat; 2%nat]] |}.
Lemma square_conforming x y : 0 <= x <= 1 -> 0 <= y <= 1 -> x = y \/ 1/4 <= y - x -> conforming_at unit_square_triangles [x; y].
Proof.
  intros Hx Hy [E|G] k k' (Hk & xi & Lx & C & W) (Hk' & xi' & Lx' & C' & W') N; cbn [unit_square_triangles connectivity length] in Hk, Hk'.
  - subst y. exists (fun j => match j with 0%nat => 1 - x | 2%nat => x | _ => 0 end).
    assert (Q : forall row, row = [0%nat; 1%nat; 2%nat] \/ row = [0%nat; 2%nat; 3%nat] -> NoDup row /\ Rsum (map (fun j => match j with 0%nat => 1 - x | 2%nat => x | _ => 0 end) row) = 1 /\
       forall c, (c < 2)%nat -> nth c [x; x] 0 = Rsum (map (fun j => match j with 0%nat => 1 - x | 2%nat => x | _ => 0 end * nth c (nth j (positions unit_square_triangles) []) 0) row)).
    { intros row [->| ->]; (split; [repeat constructor; cbn; intuition congruence|]; split; [unfold Rsum; cbn; ring|]; intros [|[|c] ] Hc; try lia; unfold Rsum; cbn; ring). }
    destruct k as [|[|k] ], k' as [|[|k'] ]; try lia; cbn [unit_square_triangles connectivity nth dim];
      (split; [intros [|[|[|[|j] ] ] ] Hj; try reflexivity; exfalso; apply Hj; cbn; tauto|intros row [->| ->]; apply Q; tauto]).
  - exfalso. assert (K : forall z, (exists xi, length xi = 2%nat /\ contains_local Triangle_Linear xi 1e-10 = Some true /\ world_position unit_square_triangles z xi = [x; y]) -> z <> 0%nat).
    { clear - G. intros z (xi & Lx & C & W) ->. destruct xi as [|u [|v [|] ] ]; try discriminate Lx. unfold world_position, world_coordinates, interpolate in W. cbn in W. injection W as W1 W2. cbn in C. injection C as C.
      apply andb_prop in C. destruct C as [C1 C2]. revert C1. case Rlt_bool_spec; intros C1 C3; [lra|discriminate C3]. }
    assert (k <> 0%nat) by (apply K; exists xi; auto). assert (k' <> 0%nat) by (apply K; exists xi'; auto). lia.
Qed.
Example C106_witness : let rest := [[1/4; 3/4]; [1/2; 1/2]] in affine_domain unit_square_triangles /\ volumetric unit_square_triangles /\ reordered unit_square_triangles other_order /\
  Forall (fun p => length p = dim unit_square_triangles /\ away_from_local_origins unit_square_triangles p /\ conforming_at unit_square_triangles p /\ exists k, point_of_element unit_square_triangles k p) rest /\
  on_common_face unit_square_triangles 0 1 [1/2; 1/2].
Proof.
  destruct C31_C32_witness as (A & _ & B & C). cbv zeta. split; [exact A|]. split; [reflexivity|]. split; [split; [reflexivity|split; [reflexivity|split; [reflexivity|apply perm_swap] ] ]|].
  assert (AW : forall x y, 1/4 <= x -> 1/4 <= y -> away_from_local_origins unit_square_triangles [x; y]).
  { intros x y Hx Hy k Hk. cbn [unit_square_triangles connectivity length] in Hk. destruct k as [|[|k] ]; try lia; unfold distance_2, world_position, world_coordinates, interpolate, Rsum; cbn; nra. }
  split; [repeat (apply Forall_cons || apply Forall_nil)|].
  - split; [reflexivity|]. split; [apply AW; lra|]. split; [apply square_conforming; lra|eexists; eassumption].
  - split; [reflexivity|]. split; [apply AW; lra|]. split; [apply square_conforming; lra|eexists; eassumption].
  - apply (square_conforming (1/2) (1/2)); [lra|lra|lra| | |lia].
    + split; [cbn; lia|]. exists [0; 1/2]. split; [reflexivity|]. split; [apply contains_closed; try reflexivity; try discriminate; try lra; split; [reflexivity|]; cbn; split; [repeat (apply Forall_cons || apply Forall_nil); lra|lra]|].
      unfold world_position, world_coordinates, interpolate. cbn. f_equal; [lra|]. f_equal. lra.
    + split; [cbn; lia|]. exists [1/2; 0]. split; [reflexivity|]. split; [apply contains_closed; try reflexivity; try discriminate; try lra; split; [reflexivity|]; cbn; split; [repeat (apply Forall_cons || apply Forall_nil); lra|lra]|].
      unfold world_position, world_coordinates, interpolate. cbn. f_equal; [lra|]. f_equal. lra.
Qed.
(** A node inside of a tetrahedron: the moment of its force about the origin is not null. *)
Definition unit_tetrahedron : domain := {| dim := 3; kind := Tetrahedron_Linear; positions := [[0; 0; 0]; [1; 0; 0]; [0; 1; 0]; [0; 0; 1]]; connectivity := [[0%nat; 1%nat; 2%nat; 3%nat]] |}.
Example C106_moment_witness : let f := [[0; 4; 0]] in let old := repeat [0; 0; 0] 4 in exists m, init unit_tetrahedron [[1/4; 1/4; 1/4]] = Some m /\ usable m = true /\ well_formed unit_tetrahedron /\
  field 4 3 (positions unit_tetrahedron) /\ field 1 3 f /\ field 4 3 old /\ apply m 3 (positions unit_tetrahedron) [[]] = Some [[1/4; 1/4; 1/4]] /\ moment [[1/4; 1/4; 1/4]] f = [-1; 0; 1].
Proof.
  cbv zeta. assert (HD : affine_domain unit_tetrahedron).
  { apply affine_simplices; [right; right; left; reflexivity|repeat constructor|repeat constructor|].
    repeat (apply Forall_cons || apply Forall_nil); unfold independent, det, gram, simplex_directions, LinAlg.column; cbn; lra. }
  assert (PE : point_of_element unit_tetrahedron 0 [1/4; 1/4; 1/4]).
  { split; [cbn; lia|]. exists [1/4; 1/4; 1/4]. split; [split; [reflexivity|cbn; split; [repeat (apply Forall_cons || apply Forall_nil); lra|lra]]|].
    unfold world_position, world_coordinates, interpolate. cbn. repeat (f_equal; try lra). }
  assert (AW : away_from_local_origins unit_tetrahedron [1/4; 1/4; 1/4]).
  { intros k Hk. cbn [unit_tetrahedron connectivity length] in Hk. destruct k as [|k]; try lia; unfold distance_2, world_position, world_coordinates, interpolate, Rsum; cbn; nra. }
  destruct (C61_usable unit_tetrahedron [[1/4; 1/4; 1/4]] HD ltac:(discriminate) ltac:(repeat constructor) ltac:(repeat constructor; exists 0%nat; exact PE)) as (m & HI & U & WF).
  exists m. split; [exact HI|]. split; [exact U|]. split; [exact WF|]. split; [split; [reflexivity|repeat constructor]|]. split; [split; [reflexivity|repeat constructor]|]. split; [split; [reflexivity|repeat constructor]|]. split.
  - destruct (C106_follows_partial unit_tetrahedron [[1/4; 1/4; 1/4]] [[1; 0; 0]; [0; 1; 0]; [0; 0; 1]] [0; 0; 0] [[]] HD eq_refl ltac:(discriminate) ltac:(split; [reflexivity|repeat constructor]) eq_refl eq_refl
      ltac:(apply Forall_cons; [split; [reflexivity|split; [exact AW|exists 0%nat; exact PE] ]|constructor])) as (m' & HI' & A). rewrite HI in HI'. injection HI' as <-.
    assert (P : map (affine_map [[1; 0; 0]; [0; 1; 0]; [0; 0; 1]] [0; 0; 0]) (positions unit_tetrahedron) = positions unit_tetrahedron) by (unfold affine_map, matvec, vadd, vdot, Rsum; cbn; repeat (f_equal; try lra)).
    rewrite P in A. cbn [dim unit_tetrahedron] in A. rewrite A. unfold affine_map, matvec, vadd, vdot, Rsum; cbn; repeat (f_equal; try lra).
  - unfold moment, total, vcross, Rsum. cbn. repeat (f_equal; try lra).
Qed.
