(** Proofs for C106: seams and orders. *)

From Coq Require Import ZArith Reals Lra Lia.
From Coquelicot Require Import Coquelicot.
From Coq Require Import List Arith Bool Permutation.
From Verif Require Import GridGeoModel HashGridModel ShapeModel ShapeSpec ShapeProofs ShapeFieldProofs LinAlg LinAlgProofs RectModel RectSpec RectProofs NewtonLocalProofs BarycentricModel BarycentricSpec BarycentricProofs BarycentricProperties
  SparseModel SparseProofs Sums MappingModel MappingSpec MappingProofs MappingProperties.
From Verif Require SurfaceProofs SurfaceProofs2.
From Verif Require Import FollowSpec FollowProofs.
Import ListNotations.
Open Scope R_scope.

Lemma seam d D values k k' xi xi' p : affine_domain d -> In (kind d) [Segment_Linear; Triangle_Linear; Tetrahedron_Linear] ->
  (k < length (connectivity d))%nat -> (k' < length (connectivity d))%nat -> length xi = CanonicalDimension (kind d) -> length xi' = CanonicalDimension (kind d) ->
  world_position d k xi = p -> world_position d k' xi' = p -> on_common_face d k k' p ->
  interpolate_at d D values (Z.of_nat k, xi) = interpolate_at d D values (Z.of_nat k', xi').
Proof.
  intros HD HK Hk Hk' Lx Lx' E E' (lambda & Z0 & H). destruct (H _ (or_introl eq_refl)) as (N1 & S1 & P1). destruct (H _ (or_intror eq_refl)) as (N2 & S2 & P2).
  rewrite <- E in P1. rewrite <- E' in P2. pose proof (face_weights d k xi lambda HD HK Hk Lx S1 P1) as W1. pose proof (face_weights d k' xi' lambda HD HK Hk' Lx' S2 P2) as W2.
  unfold interpolate_at. cbn [fst snd]. rewrite !Nat2Z.id. rewrite (interpolate_weights _ _ _ _ _ _ W1), (interpolate_weights _ _ _ _ _ _ W2).
  apply map_ext. intros c. apply (common_sum (fun j => nth c (nth j values []) 0)); assumption.
Qed.

(** Where the mapped nodes are. *)
Lemma located d rest m i p : affine_domain d -> volumetric d -> Forall (fun p => length p = dim d) rest -> init d rest = Some m -> usable m = true ->
  nth_error rest i = Some p -> away_from_local_origins d p ->
  exists k xi, nth_error (barycentric_points (m_container m)) i = Some (Z.of_nat k, xi) /\ (k < length (connectivity d))%nat /\ length xi = CanonicalDimension (kind d) /\
    contains_local (kind d) xi 1e-10 = Some true /\ world_position d k xi = p.
Proof.
  intros HD HV HP HI U Hi Aw. destruct (init_usable d rest m HI U) as (Ed & Eo & El & Er & Ec & Ej & EM).
  unfold init in HI. destruct (embed d rest) as [c|] eqn:E; [|discriminate].
  assert (C : m_container m = c) by (injection HI as <-; destruct (outside_nodes c); reflexivity). rewrite C in *.
  destruct (C31_sound_partial d rest c HD HV HP E) as (_ & S). destruct (S i p Hi) as (id & xi & Hb & [(_ & Hin & _)|(_ & k & Hk & -> & CL & P1 & P2)]).
  { rewrite Eo in Hin. destruct Hin. }
  exists k, xi. split; [exact Hb|]. split; [exact Hk|]. split; [|split; [exact CL|apply P2, Aw, Hk]].
  apply nth_error_In in Hb. apply (proj1 (Forall_forall _ _) EM _ Hb).
Qed.
Lemma applied d rest m D values old : init d rest = Some m -> usable m = true -> length values = length (positions d) -> length old = length rest ->
  applyJ m D values old = Some (map (interpolate_at d D values) (barycentric_points (m_container m))) /\ apply m D values old = Some (map (interpolate_at d D values) (barycentric_points (m_container m))).
Proof.
  intros HI U Lv Lo. destruct (init_usable d rest m HI U) as (Ed & Eo & El & _). unfold applyJ, apply. rewrite U, Ed. unfold interpolate_field. rewrite Lv, Nat.eqb_refl, Lo, <- El, Nat.eqb_refl, Eo. cbn [negb length Nat.eqb andb]. 
  assert (G : forall A B (f : A -> B) l (o : list B), length o = length l -> map2 (fun a _ => f a) l o = map f l) by (clear; induction l as [|a l IH]; intros [|b o] H; try discriminate; [reflexivity|]; cbn; f_equal; apply IH; injection H; auto).
  rewrite (G _ _ (interpolate_at d D values)) by lia. split; reflexivity.
Qed.

Lemma reordered_affine d d' : reordered d d' -> affine_domain d -> affine_domain d'.
Proof.
  intros (E1 & E2 & E3 & P) (A & B & C & G). unfold affine_domain. rewrite E1, E2, E3. split; [exact A|]. split; [exact B|]. split.
  - apply Forall_forall. intros r Hr. apply (proj1 (Forall_forall _ _) C). apply (Permutation_in _ (Permutation_sym P)). exact Hr.
  - apply Forall_forall. intros n Hn. apply (proj1 (Forall_forall _ _) G). unfold elements in *. apply in_map_iff in Hn. destruct Hn as (r & <- & Hr). apply in_map_iff. exists r. split; [unfold nodes_of_element; rewrite E3; reflexivity|apply (Permutation_in _ (Permutation_sym P)); exact Hr].
Qed.
Lemma element_row d k : (k < length (connectivity d))%nat -> nth k (elements d) [] = map (fun i => nth i (positions d) []) (nth k (connectivity d) []).
Proof. intros Hk. unfold elements. rewrite (nth_indep _ [] (nodes_of_element d [])) by (rewrite map_length; exact Hk). rewrite map_nth. reflexivity. Qed.
(** Every element of the reordered mesh is one of the mesh. *)
Lemma reordered_row d d' k : reordered d d' -> (k < length (connectivity d'))%nat -> exists j, (j < length (connectivity d))%nat /\ nth j (connectivity d) [] = nth k (connectivity d') [] /\
  (forall xi, world_position d' k xi = world_position d j xi) /\ forall D values xi, interpolate_at d' D values (Z.of_nat k, xi) = interpolate_at d D values (Z.of_nat j, xi).
Proof.
  intros (E1 & E2 & E3 & P) Hk. assert (Hin : In (nth k (connectivity d') []) (connectivity d)) by (apply (Permutation_in _ (Permutation_sym P)), nth_In; exact Hk).
  destruct (In_nth _ _ [] Hin) as (j & Hj & Ej). exists j. split; [exact Hj|]. split; [exact Ej|]. split.
  - intros xi. unfold world_position. rewrite (element_row d' k Hk), (element_row d j Hj), Ej, E1, E2, E3. reflexivity.
  - intros D values xi. unfold interpolate_at. cbn [fst snd]. rewrite !Nat2Z.id, E2, Ej. reflexivity.
Qed.
Lemma reordered_sym d d' : reordered d d' -> reordered d' d.
Proof. intros (E1 & E2 & E3 & P). repeat split; try congruence. apply Permutation_sym. exact P. Qed.
Lemma reordered_away d d' p : reordered d d' -> away_from_local_origins d p -> away_from_local_origins d' p.
Proof. intros R H k Hk. destruct (reordered_row d d' k R Hk) as (j & Hj & _ & W & _). rewrite W. destruct R as (_ & -> & _). apply H. exact Hj. Qed.

Lemma order_applied d d' rest m m' D values : affine_domain d -> volumetric d -> In (kind d) [Segment_Linear; Triangle_Linear; Tetrahedron_Linear] -> reordered d d' ->
  Forall (fun p => length p = dim d /\ away_from_local_origins d p /\ conforming_at d p) rest -> init d rest = Some m -> init d' rest = Some m' -> usable m = true -> usable m' = true ->
  map (interpolate_at d D values) (barycentric_points (m_container m)) = map (interpolate_at d' D values) (barycentric_points (m_container m')).
Proof.
  intros HD HV HK R F HI HI' U U'. pose proof (reordered_affine d d' R HD) as HD'. assert (HV' : volumetric d') by (unfold volumetric; destruct R as (-> & -> & _); exact HV).
  assert (HP : Forall (fun p => length p = dim d) rest) by (eapply Forall_impl; [|exact F]; intros p (A & _); exact A). assert (HP' : Forall (fun p => length p = dim d') rest) by (destruct R as (-> & _); exact HP).
  destruct (init_usable d rest m HI U) as (_ & _ & El & _). destruct (init_usable d' rest m' HI' U') as (_ & _ & El' & _).
  apply (nth_ext _ _ [] []); [rewrite !map_length; congruence|]. intros i Hi. rewrite map_length, El in Hi.
  destruct (nth_error rest i) as [p|] eqn:Ep; [|apply nth_error_None in Ep; lia].
  destruct (proj1 (Forall_forall _ _) F p (nth_error_In _ _ Ep)) as (Lp & Aw & CF).
  destruct (located d rest m i p HD HV HP HI U Ep Aw) as (k & xi & B & Hk & Lx & CL & W).
  destruct (located d' rest m' i p HD' HV' HP' HI' U' Ep (reordered_away d d' p R Aw)) as (k' & xi' & B' & Hk' & Lx' & CL' & W').
  rewrite (nth_error_nth _ i [] (map_nth_error (interpolate_at d D values) _ _ B)), (nth_error_nth _ i [] (map_nth_error (interpolate_at d' D values) _ _ B')).
  destruct (reordered_row d d' k' R Hk') as (j & Hj & Ej & Wj & Ij). rewrite Ij. rewrite Wj in W'. rewrite (proj1 (proj2 R)) in Lx', CL'.
  destruct (Nat.eq_dec k j) as [<-|N].
  - rewrite (world_unique d k xi xi' HD Hk Lx Lx') by congruence. reflexivity.
  - apply (seam d D values k j xi xi' p HD HK Hk Hj Lx Lx' W W'). apply CF; [split; [exact Hk|exists xi; auto]|split; [exact Hj|exists xi'; auto]|exact N].
Qed.
(** The coefficients of J are read off the images of the unit fields. *)
Lemma order_coeff d d' rest m m' i j : affine_domain d -> volumetric d -> In (kind d) [Segment_Linear; Triangle_Linear; Tetrahedron_Linear] -> reordered d d' ->
  Forall (fun p => length p = dim d /\ away_from_local_origins d p /\ conforming_at d p) rest -> init d rest = Some m -> init d' rest = Some m' -> usable m = true -> usable m' = true ->
  (i < length rest)%nat -> (j < length (positions d))%nat -> coeff (J_entries m) i j = coeff (J_entries m') i j.
Proof.
  intros HD HV HK RO F HI HI' U U' Hi Hj. pose proof (reordered_affine d d' RO HD) as HD'. pose proof (proj1 (proj2 (proj2 RO))) as EP.
  set (x := map (fun a => [if Nat.eq_dec a j then 1 else 0]) (seq 0 (length (positions d)))).
  assert (Fx : field (length (positions d)) 1 x) by (split; [unfold x; rewrite map_length, seq_length; reflexivity|apply Forall_forall; intros v Hv; apply in_map_iff in Hv; destruct Hv as (a & <- & _); reflexivity]).
  assert (Fx' : field (length (positions d')) 1 x) by (rewrite EP; exact Fx).
  assert (WF : well_formed d) by (apply HD). assert (WF' : well_formed d') by (apply HD').
  assert (Lo : length (repeat (@nil R) (length rest)) = length rest) by apply repeat_length.
  destruct (applyJ_result d rest m 1 x _ WF HI U Fx Lo) as (y & E & _ & _ & Ry). destruct (applyJ_result d' rest m' 1 x _ WF' HI' U' Fx' Lo) as (y' & E' & _ & _ & Ry').
  assert (EY : y = y').
  { rewrite (proj1 (applied d rest m 1 x _ HI U (proj1 Fx) Lo)) in E. rewrite (proj1 (applied d' rest m' 1 x _ HI' U' (proj1 Fx') Lo)) in E'. injection E as <-. injection E' as <-.
    exact (order_applied d d' rest m m' 1 x HD HV HK RO F HI HI' U U'). }
  subst y'. pose proof (Ry i 0%nat Hi ltac:(lia)) as A. rewrite (Ry' i 0%nat Hi ltac:(lia)), EP in A.
  assert (G : forall c : nat -> R, Rsum (map (fun a => c a * nth 0 (nth a x []) 0) (seq 0 (length (positions d)))) = c j).
  { intros c. transitivity (Rsum (map (fun a => if Nat.eq_dec a j then c j else 0) (seq 0 (length (positions d))))).
    - apply Rsum_ext. intros a Ha. apply in_seq in Ha. replace (nth a x []) with [if Nat.eq_dec a j then 1 else 0]; [cbn [nth]; destruct (Nat.eq_dec a j) as [->|]; ring|]. unfold x. symmetry. etransitivity; [apply nth_indep; rewrite map_length, seq_length; lia|]. rewrite (map_nth (fun a0 => [if Nat.eq_dec a0 j then 1 else 0]) _ 0%nat), seq_nth by lia. reflexivity.
    - assert (Q : forall n s, (s <= j < s + n)%nat -> Rsum (map (fun a => if Nat.eq_dec a j then c j else 0) (seq s n)) = c j).
      { clear. assert (Z : forall n s, (j < s)%nat -> Rsum (map (fun a => if Nat.eq_dec a j then c j else 0) (seq s n)) = 0).
        { induction n as [|n IH]; intros s Hs; [reflexivity|]. cbn [seq map]. unfold Rsum in *. cbn [fold_right]. rewrite IH by lia. destruct (Nat.eq_dec s j); [lia|ring]. }
        induction n as [|n IH]; intros s Hs; [lia|]. cbn [seq map]. destruct (Nat.eq_dec s j) as [->|N].
        - unfold Rsum in *. cbn [fold_right]. rewrite Z by lia. ring.
        - unfold Rsum in *. cbn [fold_right]. rewrite IH by lia. ring. }
      apply Q. lia. }
  rewrite (G (fun a => coeff (J_entries m') i a)), (G (fun a => coeff (J_entries m) i a)) in A. symmetry. exact A.
Qed.
