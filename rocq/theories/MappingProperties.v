(** C61: the barycentric mapping. *)

From Coq Require Import ZArith Reals Lra Lia.
From Coquelicot Require Import Coquelicot.
From Coq Require Import List Arith Bool.
From Verif Require Import GridGeoModel HashGridModel ShapeModel ShapeSpec ShapeProofs ShapeFieldProofs LinAlg RectModel RectSpec RectProofs
  LinAlgProofs BarycentricModel BarycentricSpec BarycentricProofs BarycentricProperties Sums SparseModel SparseProofs MappingModel MappingSpec MappingProofs.
Import ListNotations.
Open Scope R_scope.

(** The mapped forces f transferred to the parent nodes add to the power of the parent exactly the power of f on the
    mapped velocities, whatever the velocities v, the forces already there (old) and the mesh. *)
Theorem C61_power : forall d rest m D v f old out0 out, well_formed d -> init d rest = Some m -> usable m = true ->
  field (length (positions d)) D v -> field (length rest) D f -> field (length (positions d)) D old -> length out0 = length rest ->
  applyJ m D v out0 = Some out ->
  power (applyJT m D f old) v = power old v + power f out.
Proof. exact adjoint. Qed.
Print Assumptions C61_power.

(** The velocity transfer succeeds and is the derivative of the position transfer: it maps x + t v to the image of x
    plus t times the image of v. *)
Theorem C61_velocity_is_derivative : forall d rest m D x v t out0, well_formed d -> init d rest = Some m -> usable m = true ->
  field (length (positions d)) D x -> field (length (positions d)) D v -> length out0 = length rest ->
  exists px pv pxv, apply m D x out0 = Some px /\ applyJ m D v out0 = Some pv /\
    apply m D (map2 (fun a b => vadd a (vscale t b)) x v) out0 = Some pxv /\
    pxv = map2 (fun a b => vadd a (vscale t b)) px pv.
Proof.
  intros d rest m D x v t out0 WF HI U Hx Hv Ho.
  assert (Hf : forall n a b, field n D a -> field n D b -> field n D (map2 (fun a b => vadd a (vscale t b)) a b) /\
     forall i c, (i < n)%nat -> nth c (nth i (map2 (fun a b => vadd a (vscale t b)) a b) []) 0 = nth c (nth i a []) 0 + t * nth c (nth i b []) 0).
  { clear. intros n a b [La Fa] [Lb Fb]. subst n. revert b Lb Fb. induction Fa as [|u a Hu Fa IH]; intros [|w b] Lb Fb; try discriminate.
    - split; [split; [reflexivity|constructor]|]. intros i c Hi. simpl in Hi. lia.
    - inversion Fb as [|? ? Hw Fb']; subst. injection Lb as Lb. destruct (IH b Lb Fb') as [[P Q] R]. split.
      + split; [simpl; rewrite P; reflexivity|]. cbn [map2]. constructor; [|exact Q]. unfold vadd, vscale. rewrite map2_length; rewrite ?map_length; congruence.
      + intros [|i] c Hi; cbn [map2 nth]; [|apply R; simpl in Hi; lia]. clear - Hw. unfold vadd, vscale. revert c w Hw. induction u as [|p u IH]; intros c [|q w] H; try discriminate.
        * destruct c; simpl; ring.
        * destruct c; simpl; [reflexivity|]. apply IH. injection H as ->. reflexivity. }
  destruct (applyJ_result d rest m D x out0 WF HI U Hx Ho) as (px & _ & Ex & Fx & Rx).
  destruct (applyJ_result d rest m D v out0 WF HI U Hv Ho) as (pv & Ev & _ & Fv & Rv).
  destruct (Hf _ x v Hx Hv) as [Fs Rs].
  destruct (applyJ_result d rest m D _ out0 WF HI U Fs Ho) as (ps & _ & Es & Fps & Rps).
  exists px, pv, ps. repeat split; try assumption. destruct (Hf _ px pv Fx Fv) as [[Lf Ff] Rf].
  apply (nth_ext _ _ [] []); [rewrite Lf; apply Fps|]. intros i Hi. rewrite (proj1 Fps) in Hi.
  assert (L1 : length (nth i ps []) = D) by (apply (proj1 (Forall_forall _ _) (proj2 Fps)); apply nth_In; rewrite (proj1 Fps); exact Hi).
  apply (nth_ext _ _ 0 0).
  - rewrite L1. symmetry. apply (proj1 (Forall_forall _ _) Ff). apply nth_In. rewrite Lf. exact Hi.
  - intros c Hc. rewrite L1 in Hc. rewrite Rf, Rps, Rx, Rv by assumption. rewrite <- Rsum_scal_l, <- Rsum_plus. apply Rsum_ext.
    intros j Hj. apply in_seq in Hj. rewrite Rs by lia. ring.
Qed.
Print Assumptions C61_velocity_is_derivative.

(** Transferred constraint rows: the rate of every row of the parent is the one it had plus the rate of the mapped row
    on the mapped velocities. *)
Theorem C61_constraints : forall d rest m D v out0 out input output row, well_formed d -> init d rest = Some m -> usable m = true ->
  field (length (positions d)) D v -> length out0 = length rest -> applyJ m D v out0 = Some out ->
  constraints (length rest) D input -> constraints (length (positions d)) D output ->
  constraint_rate (line_of (applyJT_constraints m input output) row) v =
  constraint_rate (line_of output row) v + constraint_rate (line_of input row) out.
Proof.
  intros d rest m D v out0 out input output row WF HI U Hv Ho E HIn HOut.
  destruct (applyJ_result d rest m D v out0 WF HI U Hv Ho) as (out' & E' & _ & Fo & Ro). rewrite E in E'. injection E' as <-.
  pose proof (init_usable d rest m HI U) as (_ & _ & _ & Er & Ec & _).
  apply (constraints_transfer m input output v out D row).
  - intros i val Hi Hval. rewrite Er in Hi. rewrite Ec.
    assert (S : forall w : list R, length w = D -> Rsum (map2 Rmult val w) = Rsum (map (fun c => nth c val 0 * nth c w 0) (seq 0 D))).
    { clear - Hval. intros w Hw. subst D. revert w Hw. induction val as [|a val IH]; intros [|b w] H; try discriminate; [reflexivity|].
      simpl in *. injection H as H. rewrite (IH w H). rewrite <- seq_shift, map_map. reflexivity. }
    rewrite S.
    2:{ apply (proj1 (Forall_forall _ _) (proj2 Fo)). apply nth_In. rewrite (proj1 Fo). exact Hi. }
    transitivity (Rsum (map (fun j => Rsum (map (fun c => nth c val 0 * (coeff (J_entries m) i j * nth c (nth j v []) 0)) (seq 0 D))) (seq 0 (length (positions d))))).
    + apply Rsum_ext. intros j Hj. apply in_seq in Hj. rewrite S.
      2:{ apply (proj1 (Forall_forall _ _) (proj2 Hv)). apply nth_In. rewrite (proj1 Hv). lia. }
      rewrite <- Rsum_scal_l. apply Rsum_ext. intros c _. ring.
    + rewrite Rsum_swap. apply Rsum_ext. intros c Hc. apply in_seq in Hc. rewrite Rsum_scal_l. f_equal. symmetry. apply Ro; [exact Hi|lia].
  - exact U.
  - rewrite Er. exact HIn.
  - destruct HOut as [_ F]. eapply Forall_impl; [|exact F]. intros r Hr. eapply Forall_impl; [|exact Hr]. intros e [_ A]. exact A.
Qed.
Print Assumptions C61_constraints.

(** No force is lost: the total force received by the parent is the total mapped force. *)
Theorem C61_total_force : forall d rest m D f old, well_formed d -> init d rest = Some m -> usable m = true ->
  field (length rest) D f -> field (length (positions d)) D old ->
  total D (applyJT m D f old) = vadd (total D old) (total D f).
Proof. exact total_force. Qed.
Print Assumptions C61_total_force.

(** When a mapped node is outside of the mesh nothing is transferred in either direction. *)
Theorem C61_unusable : forall m D v f old out0 input output, usable m = false ->
  apply m D v out0 = Some out0 /\ applyJ m D v out0 = Some out0 /\ applyJT m D f old = old /\
  applyJT_constraints m input output = output.
Proof. intros m D v f old out0 input output U. unfold apply, applyJ, applyJT, applyJT_constraints. rewrite U. repeat split. Qed.
Print Assumptions C61_unusable.

(** The mapping is usable as soon as every mapped node is a point of an element. *)
Theorem C61_usable : forall d rest, affine_domain d -> connectivity d <> [] -> Forall (fun p => length p = dim d) rest ->
  Forall (fun p => exists k, point_of_element d k p) rest ->
  exists m, init d rest = Some m /\ usable m = true /\ well_formed d.
Proof.
  intros d rest HD HC HP HI. destruct (proj1 (C32_built d rest) HC) as [c E].
  assert (O : outside_nodes c = []).
  { destruct (outside_nodes c) as [|i os] eqn:O; [reflexivity|]. exfalso.
    assert (Hin : In i (outside_nodes c)) by (rewrite O; left; reflexivity).
    destruct (embed_points d rest c E) as (grid & HB & EP & HO). destruct (proj1 (HO i) Hin) as (p & Hi & _).
    assert (Hp : In p rest) by (apply nth_error_In in Hi; exact Hi).
    destruct (proj1 (Forall_forall _ _) HI p Hp) as [k Hk].
    exact (proj1 (C32_complete d rest c i p k HD HP E Hi Hk) Hin). }
  unfold init. rewrite E, O. eexists. split; [reflexivity|]. split; [unfold usable; cbn [m_container]; rewrite O; reflexivity|].
  apply HD.
Qed.
Print Assumptions C61_usable.

Example C61_witness : exists m, init unit_square_triangles [[1/4; 3/4]; [1/2; 1/2]] = Some m /\ usable m = true /\
  well_formed unit_square_triangles.
Proof.
  destruct C31_C32_witness as (A & _ & B & C). apply C61_usable; [exact A|discriminate|repeat constructor|].
  repeat (apply Forall_cons || apply Forall_nil); eexists; eassumption.
Qed.
