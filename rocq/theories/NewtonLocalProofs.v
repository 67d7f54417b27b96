(** Proofs about local coordinates computed by Newton iterations (C21). *)

From Coq Require Import Reals Lra Lia.
From Coquelicot Require Import Coquelicot.
From Coq Require Import List.
From Flocq Require Import Core.Raux.
From Verif Require Import GridGeoModel ShapeModel ShapeSpec ShapeProofs ShapeFieldProofs LinAlg RectModel RectSpec
  RectProofs LinAlgProofs.
Import ListNotations.
Open Scope R_scope.

(** ** The jacobian of an affine element *)
Lemma dot_set_coord : forall row xi k t, length row = length xi -> (k < length xi)%nat ->
  dot row (set_coord xi k t) = dot row (set_coord xi k 0) + nth k row 0 * t.
Proof.
  induction row as [|a row IH]; intros [|x xi] k t H Hk; simpl in *; try lia.
  destruct k; simpl; [ring|]. rewrite (IH xi k t) by lia. ring.
Qed.

Lemma world_length : forall d e nodes xi, length (world_coordinates d e nodes xi) = d.
Proof. intros. unfold world_coordinates, interpolate. rewrite map_length, seq_length. reflexivity. Qed.

Lemma nth_vadd : forall a b c, length a = length b -> (c < length a)%nat -> nth c (vadd a b) 0 = nth c a 0 + nth c b 0.
Proof.
  unfold vadd. induction a as [|x a IH]; intros [|y b] c H Hc; simpl in *; try lia.
  destruct c; [reflexivity|]. apply IH; lia.
Qed.

Lemma nth_matvec : forall M v c, (c < length M)%nat -> nth c (matvec M v) 0 = dot (nth c M []) v.
Proof.
  unfold matvec. induction M; intros v c Hc; simpl in *; [lia|].
  destruct c; [apply vdot_dot|]. apply IHM. lia.
Qed.

Lemma list_eq_nth : forall (A : Type) (d : A) l m, length l = length m ->
  (forall i, (i < length l)%nat -> nth i l d = nth i m d) -> l = m.
Proof.
  intros A d l. induction l; intros [|b m] H E; simpl in *; try discriminate; [reflexivity|].
  f_equal; [exact (E 0%nat ltac:(lia))|]. apply IHl; [congruence|]. intros i Hi. exact (E (S i) ltac:(lia)).
Qed.

Lemma jacobian_affine : forall d e nodes x0 E xi, table (NumberOfNodes e) d nodes ->
  affine_element d e nodes x0 E -> length xi = CanonicalDimension e ->
  jacobian d e nodes xi = E.
Proof.
  intros d e nodes x0 E xi Hn ((HE & HEk) & Hx0 & Haff) Hxi.
  assert (LJ : length (jacobian d e nodes xi) = d) by (unfold jacobian; rewrite map_length, seq_length; reflexivity).
  apply (list_eq_nth _ []); [congruence|]. rewrite LJ. intros c Hc.
  assert (LE : length (nth c E []) = CanonicalDimension e).
  { apply (proj1 (Forall_forall _ _) HEk). apply nth_In. lia. }
  assert (Lc : length (nth c (jacobian d e nodes xi) []) = CanonicalDimension e).
  { unfold jacobian. rewrite nth_map_seq' by exact Hc. rewrite map_length, seq_length. reflexivity. }
  apply (list_eq_nth _ 0); [congruence|]. rewrite Lc. intros k Hk.
  pose proof (jacobian_derivative d e nodes xi c k Hn Hxi Hc Hk) as D. unfold partial_derivative in D.
  rewrite <- (is_derive_unique _ _ _ D).
  apply is_derive_unique.
  apply (is_derive_ext (fun t => (nth c x0 0 + dot (nth c E []) (set_coord xi k 0)) + nth k (nth c E []) 0 * t)).
  - intros t. rewrite Haff by (rewrite length_set_coord; exact Hxi).
    rewrite nth_vadd by (rewrite ?matvec_length; lia). rewrite nth_matvec by lia.
    rewrite (dot_set_coord (nth c E []) xi k t) by lia. simpl. ring.
  - auto_derive; [exact I|ring].
Qed.

(** ** One step on an affine element *)
Lemma affine_residual : forall d e nodes x0 E xi xi', affine_element d e nodes x0 E ->
  length xi = CanonicalDimension e -> length xi' = CanonicalDimension e ->
  vminus (world_coordinates d e nodes xi') (world_coordinates d e nodes xi) = matvec E (vminus xi' xi).
Proof.
  intros d e nodes x0 E xi xi' ((HE & HEk) & Hx0 & Haff) Hxi Hxi'.
  rewrite !Haff by assumption. rewrite vminus_cancel by (rewrite matvec_length; congruence).
  symmetry. apply matvec_vminus. congruence.
Qed.

Lemma canonical_dimension_range : forall e, (1 <= CanonicalDimension e <= 3)%nat.
Proof. intros []; simpl; lia. Qed.

(** The displacement computed from a residual that is E * delta is delta. *)
Lemma newton_direction : forall d k E delta, (1 <= k <= 3)%nat -> table d k E -> length delta = k ->
  independent k E ->
  (if Nat.eqb d k then matvec (inverse E) (matvec E delta)
   else matvec (inverse (matmul k (transpose k E) E)) (matvec (transpose k E) (matvec E delta))) = delta.
Proof.
  intros d k E delta Hk [HE HEk] Hd HI. destruct (Nat.eqb d k) eqn:Edk.
  - apply Nat.eqb_eq in Edk. subst d. apply (inverse_matvec k); [assumption|split; assumption|assumption|].
    unfold independent in HI. rewrite gram_det_square in HI by (assumption || (split; assumption)). nra.
  - rewrite gram_is_product, <- gram_matvec by assumption.
    apply (inverse_matvec k); [assumption|apply gram_square|assumption|exact HI].
Qed.

Lemma newton_step_affine : forall d e nodes x0 E xi xi', table (NumberOfNodes e) d nodes ->
  affine_element d e nodes x0 E -> independent (CanonicalDimension e) E ->
  length xi = CanonicalDimension e -> length xi' = CanonicalDimension e ->
  newton_step d e nodes (world_coordinates d e nodes xi') xi = xi'.
Proof.
  intros d e nodes x0 E xi xi' Hn Haff HI Hxi Hxi'.
  unfold newton_step. rewrite (jacobian_affine d e nodes x0 E xi Hn Haff Hxi).
  rewrite (affine_residual d e nodes x0 E xi xi' Haff Hxi Hxi').
  rewrite newton_direction; [apply vadd_vminus; congruence|apply canonical_dimension_range|apply Haff| |exact HI].
  rewrite vminus_length; congruence.
Qed.

Lemma newton_loop_affine : forall d e nodes x0 E xi' r0 thr n xi, table (NumberOfNodes e) d nodes ->
  affine_element d e nodes x0 E -> independent (CanonicalDimension e) E ->
  length xi = CanonicalDimension e -> length xi' = CanonicalDimension e ->
  newton_loop d e nodes (world_coordinates d e nodes xi') r0 thr n xi = xi'.
Proof.
  intros d e nodes x0 E xi' r0 thr n. induction n as [|n IH]; intros xi Hn Haff HI Hxi Hxi'.
  - simpl. eapply newton_step_affine; eassumption.
  - cbn [newton_loop]. rewrite (newton_step_affine d e nodes x0 E xi xi') by assumption.
    destruct n; [reflexivity|]. destruct (Rle_bool _ _); [|reflexivity]. apply IH; assumption.
Qed.

Lemma newton_affine_exact : forall d e nodes x0 E start tol n xi', table (NumberOfNodes e) d nodes ->
  affine_element d e nodes x0 E -> independent (CanonicalDimension e) E ->
  length start = CanonicalDimension e -> length xi' = CanonicalDimension e ->
  tol * tol <= squared_distance d e nodes (world_coordinates d e nodes xi') start ->
  local_coordinates_from d e nodes (world_coordinates d e nodes xi') start tol n = xi'.
Proof.
  intros d e nodes x0 E start tol n xi' Hn Haff HI Hs Hxi' Ht.
  unfold local_coordinates_from.
  assert (Q : residual_norm_2 d e nodes (world_coordinates d e nodes xi') start =
              squared_distance d e nodes (world_coordinates d e nodes xi') start).
  { unfold residual_norm_2, squared_distance, squaredNorm, vdot, vminus. f_equal.
    generalize (world_coordinates d e nodes xi') (world_coordinates d e nodes start).
    induction l; intros [|b m]; simpl; try reflexivity. f_equal. apply IHl. }
  rewrite Q, Rlt_bool_false by exact Ht. eapply newton_loop_affine; eassumption.
Qed.

Lemma residual_is_distance : forall d e nodes x xi,
  residual_norm_2 d e nodes x xi = squared_distance d e nodes x xi.
Proof.
  intros. unfold residual_norm_2, squared_distance, squaredNorm, vdot, vminus. f_equal.
  generalize (world_coordinates d e nodes xi). revert x.
  induction x; intros [|b m]; simpl; try reflexivity. f_equal. apply IHx.
Qed.

(** ** Least squares: elements of lower dimension than the space *)
Lemma matvec_inverse : forall n M v, (1 <= n <= 3)%nat -> square n M -> length v = n -> det M <> 0 ->
  matvec M (matvec (inverse M) v) = v.
Proof.
  intros n M v Hn HM Hv HD.
  assert (n = 1 \/ n = 2 \/ n = 3)%nat as [-> | [-> | ->]] by lia; rows M HM; unfold det in HD;
    unfold inverse, det; vec_unfold; entries; exact HD.
Qed.

Lemma inverse_rows : forall n M, (1 <= n <= 3)%nat -> square n M -> length (inverse M) = n.
Proof.
  intros n M Hn HM.
  assert (n = 1 \/ n = 2 \/ n = 3)%nat as [-> | [-> | ->]] by lia; rows M HM; reflexivity.
Qed.

Lemma normal_equations_after_step : forall d e nodes x0 E x xi, table (NumberOfNodes e) d nodes ->
  affine_element d e nodes x0 E -> independent (CanonicalDimension e) E -> d <> CanonicalDimension e ->
  length xi = CanonicalDimension e -> length x = d ->
  length (newton_step d e nodes x xi) = CanonicalDimension e /\
  matvec (transpose (CanonicalDimension e) E)
         (vminus x (world_coordinates d e nodes (newton_step d e nodes x xi))) = repeat 0 (CanonicalDimension e).
Proof.
  intros d e nodes x0 E x xi Hn Haff HI Hd Hxi Hx. set (k := CanonicalDimension e) in *.
  pose proof (canonical_dimension_range e) as Hk. fold k in Hk.
  destruct Haff as [[HE HEk] Haff']. assert (Haff : affine_element d e nodes x0 E) by (split; [split|]; assumption).
  set (res := vminus x (world_coordinates d e nodes xi)).
  set (dxi := matvec (inverse (gram k E)) (matvec (transpose k E) res)).
  assert (S : newton_step d e nodes x xi = vadd xi dxi).
  { unfold newton_step. rewrite (jacobian_affine d e nodes x0 E xi Hn Haff Hxi). fold k.
    apply Nat.eqb_neq in Hd. rewrite Hd, gram_is_product. reflexivity. }
  assert (Ld : length dxi = k) by (unfold dxi; rewrite matvec_length; apply inverse_rows; [assumption|apply gram_square]).
  assert (Ls : length (newton_step d e nodes x xi) = k) by (rewrite S, vadd_length; congruence).
  split; [exact Ls|].
  assert (Lr : length res = d) by (unfold res; rewrite vminus_length; rewrite ?world_length; assumption).
  rewrite (vminus_chain x (world_coordinates d e nodes xi)) by (rewrite ?world_length; congruence).
  fold res.
  assert (R1 : vminus (world_coordinates d e nodes xi) (world_coordinates d e nodes (newton_step d e nodes x xi))
               = matvec E (vminus xi (newton_step d e nodes x xi)))
    by (eapply affine_residual; eassumption).
  rewrite R1, matvec_vadd by (rewrite matvec_length; congruence).
  rewrite <- gram_matvec by (assumption || (rewrite vminus_length; congruence)).
  rewrite matvec_vminus by congruence. rewrite S, matvec_vadd by congruence.
  unfold dxi at 1. rewrite (matvec_inverse k) by (assumption || apply gram_square ||
    (rewrite matvec_length; unfold transpose; rewrite map_length, seq_length; reflexivity)).
  set (t := matvec (transpose k E) res). set (g := matvec (gram k E) xi).
  assert (Lt : length t = k) by (unfold t; rewrite matvec_length; unfold transpose; rewrite map_length, seq_length; reflexivity).
  assert (Lg : length g = k) by (unfold g; rewrite matvec_length; apply gram_square).
  clearbody t g. clear -Lt Lg. revert t g Lt Lg. generalize k. clear k. unfold vadd, vminus.
  induction k; intros [|u t] [|v g] Lt Lg; simpl in *; try discriminate; [reflexivity|].
  f_equal; [ring|]. apply IHk; congruence.
Qed.

Lemma normal_equations_minimal : forall d e nodes x0 E x xi xi', table (NumberOfNodes e) d nodes ->
  affine_element d e nodes x0 E ->
  length xi = CanonicalDimension e -> length xi' = CanonicalDimension e -> length x = d ->
  matvec (transpose (CanonicalDimension e) E) (vminus x (world_coordinates d e nodes xi)) = repeat 0 (CanonicalDimension e) ->
  squared_distance d e nodes x xi <= squared_distance d e nodes x xi'.
Proof.
  intros d e nodes x0 E x xi xi' Hn Haff Hxi Hxi' Hx H.
  rewrite <- !residual_is_distance. unfold residual_norm_2.
  rewrite (vminus_chain x (world_coordinates d e nodes xi) (world_coordinates d e nodes xi')) by (rewrite ?world_length; congruence).
  rewrite (affine_residual d e nodes x0 E xi' xi Haff Hxi' Hxi).
  destruct Haff as [[HE HEk] _].
  rewrite squaredNorm_vadd by (rewrite matvec_length, vminus_length; rewrite ?world_length; congruence).
  rewrite (dot_adjoint (CanonicalDimension e)) by (assumption || (rewrite vminus_length; rewrite ?world_length; congruence)).
  rewrite H. replace (dot (repeat 0 (CanonicalDimension e)) (vminus xi xi')) with 0.
  - pose proof (squaredNorm_nonneg (matvec E (vminus xi xi'))). lra.
  - generalize (CanonicalDimension e) (vminus xi xi'). induction n; intros [|y l]; simpl; try reflexivity.
    rewrite <- IHn. ring.
Qed.

Lemma newton_loop_last_step : forall d e nodes x r0 thr (P : list R -> Prop), 
  (forall xi, length xi = CanonicalDimension e -> P (newton_step d e nodes x xi) /\
                                                  length (newton_step d e nodes x xi) = CanonicalDimension e) ->
  forall n xi, length xi = CanonicalDimension e -> P (newton_loop d e nodes x r0 thr n xi).
Proof.
  intros d e nodes x r0 thr P H n. induction n as [|n IH]; intros xi Hxi; [apply H; exact Hxi|].
  cbn [newton_loop]. destruct n; [apply H; exact Hxi|].
  destruct (Rle_bool _ _); [|apply H; exact Hxi]. apply IH. apply H. exact Hxi.
Qed.

Lemma newton_affine_projection : forall d e nodes x0 E start tol n x xi', table (NumberOfNodes e) d nodes ->
  affine_element d e nodes x0 E -> independent (CanonicalDimension e) E -> d <> CanonicalDimension e ->
  length start = CanonicalDimension e -> length x = d -> length xi' = CanonicalDimension e ->
  tol * tol <= squared_distance d e nodes x start ->
  squared_distance d e nodes x (local_coordinates_from d e nodes x start tol n) <= squared_distance d e nodes x xi'.
Proof.
  intros d e nodes x0 E start tol n x xi' Hn Haff HI Hd Hs Hx Hxi' Ht.
  unfold local_coordinates_from. rewrite residual_is_distance, Rlt_bool_false by exact Ht.
  set (thr := tol * tol). set (r0 := squared_distance d e nodes x start).
  apply (newton_loop_last_step d e nodes x r0 thr
    (fun xi => squared_distance d e nodes x xi <= squared_distance d e nodes x xi')); [|exact Hs].
  intros xi Hxi. destruct (normal_equations_after_step d e nodes x0 E x xi) as [L N]; try assumption.
  split; [|exact L]. eapply normal_equations_minimal; eassumption.
Qed.

(** ** What the loop returns in general *)
Lemma iter_succ_r : forall (A : Type) (f : A -> A) m x, Nat.iter (S m) f x = Nat.iter m f (f x).
Proof. intros A f m. induction m; intros x; [reflexivity|]. change (f (Nat.iter (S m) f x) = f (Nat.iter m f (f x))). f_equal. apply IHm. Qed.

Lemma newton_loop_result : forall d e nodes x r0 thr n xi,
  exists m, (1 <= m <= Nat.max 1 n)%nat /\
    newton_loop d e nodes x r0 thr n xi = Nat.iter m (newton_step d e nodes x) xi /\
    (m = Nat.max 1 n \/ residual_norm_2 d e nodes x (Nat.iter m (newton_step d e nodes x) xi) < r0 * thr).
Proof.
  intros d e nodes x r0 thr n. induction n as [|n IH]; intros xi.
  - exists 1%nat. simpl. split; [lia|]. split; [reflexivity|]. left; reflexivity.
  - cbn [newton_loop]. destruct n as [|n].
    + exists 1%nat. simpl. split; [lia|]. split; [reflexivity|]. left; reflexivity.
    + destruct (Rle_bool_spec (r0 * thr) (residual_norm_2 d e nodes x (newton_step d e nodes x xi))) as [Hle|Hlt].
      * destruct (IH (newton_step d e nodes x xi)) as (m & Hm & E & C). exists (S m).
        rewrite iter_succ_r. split; [lia|]. split; [exact E|]. destruct C as [C|C]; [left; lia|right; exact C].
      * exists 1%nat. split; [lia|]. split; [reflexivity|]. right. exact Hlt.
Qed.

Lemma local_coordinates_result : forall d e nodes x start tol n,
  let xi := local_coordinates_from d e nodes x start tol n in
  (xi = start /\ squared_distance d e nodes x start < tol * tol) \/
  (tol * tol <= squared_distance d e nodes x start /\
   exists m, (1 <= m <= Nat.max 1 n)%nat /\ xi = Nat.iter m (newton_step d e nodes x) start /\
    (m = Nat.max 1 n \/ squared_distance d e nodes x xi < squared_distance d e nodes x start * (tol * tol))).
Proof.
  intros d e nodes x start tol n xi. unfold xi, local_coordinates_from.
  rewrite residual_is_distance.
  destruct (Rlt_bool_spec (squared_distance d e nodes x start) (tol * tol)) as [Hlt|Hle].
  - left. split; [reflexivity|exact Hlt].
  - right. split; [exact Hle|].
    destruct (newton_loop_result d e nodes x (squared_distance d e nodes x start) (tol * tol) n start) as (m & Hm & E & C).
    exists m. split; [exact Hm|]. split; [exact E|]. destruct C as [C|C]; [left; exact C|right].
    rewrite E, <- residual_is_distance. exact C.
Qed.

(** ** Affine elements *)
Lemma map2_map_map : forall A B (f g : A -> R) (h : R -> R -> B) s, map2 h (map f s) (map g s) = map (fun c => h (f c) (g c)) s.
Proof. intros. induction s; simpl; [reflexivity|]. f_equal. assumption. Qed.

Definition simplex_origin (d : nat) (e : element) (nodes : list (list R)) : list R :=
  let node i c := nth c (nth i nodes []) 0 in
  match e with
  | Segment_Linear => map (fun c => (node 0%nat c + node 1%nat c) / 2) (seq 0 d)
  | _ => map (node 0%nat) (seq 0 d)
  end.
Definition simplex_directions (d : nat) (e : element) (nodes : list (list R)) : list (list R) :=
  let node i c := nth c (nth i nodes []) 0 in
  match e with
  | Segment_Linear => map (fun c => [(node 1%nat c - node 0%nat c) / 2]) (seq 0 d)
  | _ => map (fun c => map (fun k => node (S k) c - node 0%nat c) (seq 0 (CanonicalDimension e))) (seq 0 d)
  end.

Lemma linear_simplices_affine : forall d e nodes,
  e = Segment_Linear \/ e = Triangle_Linear \/ e = Tetrahedron_Linear ->
  table (NumberOfNodes e) d nodes ->
  affine_element d e nodes (simplex_origin d e nodes) (simplex_directions d e nodes).
Proof.
  intros d e nodes He [Hn Hd].
  destruct He as [-> | [-> | ->]];
  (split; [split; [unfold simplex_directions; rewrite map_length, seq_length; reflexivity
                  |apply Forall_forall; intros row Hr; unfold simplex_directions in Hr; apply in_map_iff in Hr;
                   destruct Hr as (c & <- & _); reflexivity]|]);
  (split; [unfold simplex_origin; rewrite map_length, seq_length; reflexivity|]);
  intros xi Hxi; len_xi xi Hxi;
  unfold world_coordinates, interpolate, matvec, simplex_directions, simplex_origin, vadd;
  rewrite map_map, map2_map_map; apply map_ext; intros c;
  rewrite (map2_seq _ _ _ [] 0 (NumberOfNodes _)) by (exact Hn || apply length_L);
  unfold_shape; unfold vdot; cbn [map2 Rsum fold_right seq map]; field.
Qed.

Lemma rh_affine : forall e r, e = RectangularHexahedron_Linear \/ e = RectangularHexahedron_Quadratic ->
  well_formed 3 3 r ->
  affine_element 3 e (RH_nodes e r) (p_center r) (map (fun row => cwiseProduct row (half_size r)) (p_R r)) /\
  independent 3 (map (fun row => cwiseProduct row (half_size r)) (p_R r)).
Proof.
  intros e0 r He W. split.
  - pose proof W as W'. unpack_rect3 W'. split; [split|split].
    + reflexivity.
    + destruct He as [-> | ->]; repeat constructor.
    + reflexivity.
    + intros xi Hxi. assert (Hxi' : length xi = 3%nat) by (destruct He as [-> | ->]; exact Hxi).
      rewrite rh_world_nodal by assumption. apply len3 in Hxi'. destruct Hxi' as (u & v & w & ->).
      unfold RH_world_coordinates. vec_unfold. entries.
  - unfold independent. unpack_rect3 W.
    destruct (orthonormal3 a b c d e f g h i A B C AB AC BC) as (D & _).
    rewrite gram_det_square by (lia || (split; [reflexivity|repeat constructor])).
    vec_unfold. unfold det.
    set (D3 := a * (e * i - f * h) - b * (d * i - f * g) + c * (d * h - e * g)) in D.
    match goal with |- ?x * ?x <> 0 => replace x with (h1 / 2 * (h2 / 2) * (h3 / 2) * D3) by (unfold D3; field) end.
    assert (D3 <> 0) by (intros Z; rewrite Z in D; lra).
    assert (forall x, x <> 0 -> x / 2 <> 0) by (intros; lra).
    repeat apply Rmult_integral_contrapositive_currified; auto; lra.
Qed.

Lemma rq_affine2 : forall e r, e = RectangularQuad_Linear \/ e = RectangularQuad_Quadratic ->
  well_formed 2 2 r ->
  let E := map (fun row => cwiseProduct row (half_size r)) (p_R r) in
  affine_element 2 e (RQ_nodes 2 e r) (p_center r) E /\ independent 2 E.
Proof.
  intros e0 r He W E. pose proof W as W'. destruct r as [c0 H0 R0]. destruct W as (Hc & Hh & Hn & HR). cbn [p_center p_H p_R] in *.
  apply len2 in Hc. destruct Hc as (c1 & c2 & ->). apply len2 in Hh. destruct Hh as (h1 & h2 & ->).
  apply orthonormal2_entries in HR. destruct HR as (a & b & c & d & -> & A & B & AB).
  inversion Hn as [|? ? N1 Hn1]; subst. inversion Hn1 as [|? ? N2 Hn2]; subst.
  split; [split; [split|split]|].
  - reflexivity.
  - destruct He as [-> | ->]; repeat constructor.
  - reflexivity.
  - intros xi Hxi. assert (Hxi' : length xi = 2%nat) by (destruct He as [-> | ->]; exact Hxi).
    rewrite rq_world_nodal2 by assumption. apply len2 in Hxi'. destruct Hxi' as (u & v & ->).
    unfold E, RQ_T. vec_unfold. entries.
  - unfold independent, E, gram, column. cbn [half_size p_R p_H map seq nth]. unfold cwiseProduct. cbn [map2 nth dot]. unfold det.
    match goal with |- ?x <> 0 => replace x with (((a*a + c*c) * (b*b + d*d) - (a*b+c*d)*(a*b+c*d)) * ((h1*h1/4) * (h2*h2/4))) by field end.
    rewrite A, B, AB.
    assert (0 < h1 * h1) by nra. assert (0 < h2 * h2) by nra.
    assert (0 < (h1*h1/4) * (h2*h2/4)) by (apply Rmult_lt_0_compat; lra). lra.
Qed.

Lemma rq_affine3 : forall e r, e = RectangularQuad_Linear \/ e = RectangularQuad_Quadratic ->
  well_formed 3 2 r ->
  let E := map (fun row => cwiseProduct (firstn 2 row) (half_size r)) (p_R r) in
  affine_element 3 e (RQ_nodes 3 e r) (p_center r) E /\ independent 2 E.
Proof.
  intros e0 r He W E. pose proof W as W'. destruct r as [c0 H0 R0]. destruct W as (Hc & Hh & Hn & HR). cbn [p_center p_H p_R] in *.
  apply len3 in Hc. destruct Hc as (c1 & c2 & c3 & ->). apply len2 in Hh. destruct Hh as (h1 & h2 & ->).
  apply orthonormal3_entries in HR. destruct HR as (a & b & c & d & e & f & g & h & i & -> & A & B & C & AB & _).
  inversion Hn as [|? ? N1 Hn1]; subst. inversion Hn1 as [|? ? N2 Hn2]; subst.
  split; [split; [split|split]|].
  - reflexivity.
  - destruct He as [-> | ->]; repeat constructor.
  - reflexivity.
  - intros xi Hxi. assert (Hxi' : length xi = 2%nat) by (destruct He as [-> | ->]; exact Hxi).
    rewrite rq_world_nodal3 by assumption. apply len2 in Hxi'. destruct Hxi' as (u & v & ->).
    unfold E, RQ_T. cbn [firstn]. vec_unfold. cbn [firstn map2 map fold_right]. entries.
  - unfold independent, E, gram, column. cbn [half_size p_R p_H map seq nth firstn]. unfold cwiseProduct. cbn [map2 nth dot]. unfold det.
    match goal with |- ?x <> 0 => replace x with (((a*a + d*d + g*g) * (b*b + e*e + h*h) - (a*b+d*e+g*h)*(a*b+d*e+g*h)) * ((h1*h1/4) * (h2*h2/4))) by field end.
    rewrite A, B, AB.
    assert (0 < h1 * h1) by nra. assert (0 < h2 * h2) by nra.
    assert (0 < (h1*h1/4) * (h2*h2/4)) by (apply Rmult_lt_0_compat; lra). lra.
Qed.

(** ** The default arguments *)
Lemma tolerance_square : 1e-5 * 1e-5 = 1e-10.
Proof. lra. Qed.

Lemma rq_local_world : forall d e r xi, e = RectangularQuad_Linear \/ e = RectangularQuad_Quadratic ->
  d = 2%nat \/ d = 3%nat -> well_formed d 2 r -> length xi = 2%nat ->
  1e-10 <= squared_distance d e (RQ_nodes d e r) (RQ_T d r xi) [0; 0] ->
  local_coordinates d e (RQ_nodes d e r) (RQ_T d r xi) = xi.
Proof.
  intros d e r xi He Hd W Hxi Hfar.
  assert (Hk : CanonicalDimension e = 2%nat) by (destruct He as [-> | ->]; reflexivity).
  assert (exists E, affine_element d e (RQ_nodes d e r) (p_center r) E /\ independent 2 E) as (E & HA & HI).
  { destruct Hd as [-> | ->].
    - eexists. apply (rq_affine2 e r He W).
    - eexists. apply (rq_affine3 e r He W). }
  assert (Hw : world_coordinates d e (RQ_nodes d e r) xi = RQ_T d r xi).
  { destruct Hd as [-> | ->]; [apply rq_world_nodal2|apply rq_world_nodal3]; assumption. }
  rewrite <- Hw in *. unfold local_coordinates. rewrite Hk.
  eapply newton_affine_exact; try eassumption.
  - split.
    + unfold RQ_nodes. rewrite map_length. destruct He as [-> | ->]; reflexivity.
    + apply Forall_forall. intros y Hy. unfold RQ_nodes in Hy. apply in_map_iff in Hy. destruct Hy as (z & <- & Hz).
      unfold RQ_T. destruct W as (W1 & W2 & W3 & W4 & W5). rewrite vadd_length; [exact W1|].
      rewrite matvec_length. destruct W4 as [W4 _]. congruence.
  - rewrite Hk. exact HI.
  - rewrite Hk. reflexivity.
  - rewrite Hk. exact Hxi.
  - rewrite tolerance_square. exact Hfar.
Qed.
