(** C105: the load of a surface does not depend on how the surface is described. *)

From Coq Require Import ZArith Reals Lra Lia.
From Coquelicot Require Import Coquelicot.
From Coq Require Import List Arith Bool Permutation.
From Flocq Require Import Core.Raux.
From Verif Require Import GridGeoModel ShapeModel ShapeSpec ShapeProofs LinAlg LinAlgProofs RectModel BarycentricModel MappingSpec Sums TractionModel TractionSpec TractionProofs NumberingSpec SurfaceSpec SurfaceProofs SurfaceProofs2 SurfaceProofs3.
Import ListNotations.
Open Scope R_scope.

(** ** The listings *)

(** Every generator is an affine map that carries the nodes of the reference element onto its nodes, in the stated order. *)
Theorem C105_symmetries :
  forall e s, In s (surface_symmetries e) ->
    map (carried s) (canonical_nodes e) = map (fun a => nth a (canonical_nodes e) []) (order s) /\
    Permutation (order s) (seq 0 (NumberOfNodes e)) /\ (det (turn s) = 1 \/ det (turn s) = -1).
Proof.
  intros e s Hs. split; [apply (side_nodes e s Hs)|]. split; [apply (side_order e s Hs)|]. destruct (side_turn e s Hs) as (a & b & c & d & -> & H). exact H.
Qed.
Print Assumptions C105_symmetries.

(** Among the listings are all the orders of the corners of a triangle... *)
Theorem C105_every_listing_of_a_triangle :
  forall row row', length row = 3%nat -> Permutation row row' -> relisted_side Triangle_Linear row row'.
Proof.
  intros row row' Hl P. destruct row as [|a [|b [|c [|] ] ] ]; try discriminate Hl.
  assert (S : forall x y z, relisted_side Triangle_Linear [a; b; c] [x; y; z] -> relisted_side Triangle_Linear [a; b; c] [y; x; z]).
  { intros x y z H. apply (side_one_more Triangle_Linear _ _ {| order := [1; 0; 2]%nat; turn := swap_of_triangle; shift := [1; 0] |} (or_introl eq_refl) H). }
  assert (C : forall x y z, relisted_side Triangle_Linear [a; b; c] [x; y; z] -> relisted_side Triangle_Linear [a; b; c] [y; z; x]).
  { intros x y z H. apply (side_one_more Triangle_Linear _ _ {| order := [1; 2; 0]%nat; turn := cycle_of_triangle; shift := [1; 0] |} (or_intror (or_introl eq_refl)) H). }
  assert (S1 : forall x y z, relisted_side Triangle_Linear [a; b; c] [x; y; z] -> relisted_side Triangle_Linear [a; b; c] [x; z; y]).
  { intros x y z H. apply C, C, S, C. exact H. }
  pose proof (Permutation_length P) as L'. destruct row' as [|x [|y [|z [|] ] ] ]; try discriminate L'.
  assert (F : forall u v w, Permutation [u; v; w] [x; y; z] -> relisted_side Triangle_Linear [a; b; c] [u; v; w] -> relisted_side Triangle_Linear [a; b; c] [x; y; z]).
  { intros u v w Q H. assert (I : In x [u; v; w]) by (apply (Permutation_in _ (Permutation_sym Q)); left; reflexivity).
    assert (F2 : forall p q, Permutation [p; q] [y; z] -> relisted_side Triangle_Linear [a; b; c] [x; p; q] -> relisted_side Triangle_Linear [a; b; c] [x; y; z]).
    { intros p q Q2 H2. destruct (Permutation_length_2_inv Q2) as [E|E]; injection E as <- <-; [exact H2|apply S1; exact H2]. }
    destruct I as [<-|[<-|[<-|[] ] ] ].
    - apply (F2 v w); [apply (Permutation_cons_inv Q)|exact H].
    - apply (F2 u w); [apply (Permutation_cons_inv (a := v)); rewrite <- Q; apply perm_swap|apply S; exact H].
    - apply (F2 u v); [apply (Permutation_cons_inv (a := w)); rewrite <- Q; rewrite (perm_swap u w [v]); apply perm_skip, perm_swap|apply S, S1; exact H]. }
  apply (F a b c P). constructor.
Qed.
Print Assumptions C105_every_listing_of_a_triangle.

(** ... and the corners of a square from any of them, one way round or the other. *)
Theorem C105_every_listing_of_a_quad :
  forall a b c d row', In row' [ [a; b; c; d]; [b; c; d; a]; [c; d; a; b]; [d; a; b; c]; [d; c; b; a]; [c; b; a; d]; [b; a; d; c]; [a; d; c; b] ] ->
    relisted_side Quad_Linear [a; b; c; d] row'.
Proof.
  intros a b c d row'.
  assert (T : forall w x y z, relisted_side Quad_Linear [a; b; c; d] [w; x; y; z] -> relisted_side Quad_Linear [a; b; c; d] [x; y; z; w]).
  { intros w x y z H. apply (side_one_more Quad_Linear _ _ {| order := [1; 2; 3; 0]%nat; turn := quarter_turn; shift := [0; 0] |} (or_introl eq_refl) H). }
  assert (M : forall w x y z, relisted_side Quad_Linear [a; b; c; d] [w; x; y; z] -> relisted_side Quad_Linear [a; b; c; d] [x; w; z; y]).
  { intros w x y z H. apply (side_one_more Quad_Linear _ _ {| order := [1; 0; 3; 2]%nat; turn := mirror; shift := [0; 0] |} (or_intror (or_introl eq_refl)) H). }
  assert (O : relisted_side Quad_Linear [a; b; c; d] [a; b; c; d]) by constructor.
  intros H. cbn [In] in H. repeat (destruct H as [<-|H]; [auto 8|]). contradiction H.
Qed.
Print Assumptions C105_every_listing_of_a_quad.

(** ** The whole state after any history of events *)

(** The same elements in another order, listed otherwise: the same nodal forces, loads and counters. *)
Theorem C105_listing :
  forall c d' events, surface_mesh c -> plate (surface c) -> same_surface (surface c) d' -> run_events (on d' c) events = run_events c events.
Proof.
  intros c d' events (WF & Ht & _) Pd SS. pose proof SS as (ED & EK & EP & _).
  destruct (run_image c (on d' c) (fun v => v) (fun i => i) (length (positions (surface c))) (dim (surface c))) with (events := events) as (s & E1 & S & E2); cbn [on surface traction slope steps_before_increment]; auto.
  - rewrite EP. reflexivity.
  - apply (same_well_formed (surface c) d' Pd WF SS).
  - apply identity_isometry.
  - intros i _. apply (same_weight (surface c) d' Pd WF SS).
  - apply (same_area (surface c) d' Pd WF SS).
  - rewrite E1, E2. f_equal. unfold image. destruct s as [nf tl ic ct ss]. cbn [nodal_forces total_load is_constant current_traction steps_since_last_increment] in *. f_equal.
    destruct S as [[L _] _]. cbn [nodal_forces] in L. rewrite <- L. clear. induction nf as [|x nf IH]; [reflexivity|]. cbn [length seq map nth]. rewrite <- seq_shift, map_map. f_equal. exact IH.
Qed.
Print Assumptions C105_listing.

(** Other numbers for the nodes: the forces follow the nodes. *)
Theorem C105_numbers :
  forall c s t events, let N := length (positions (surface c)) in
    surface_mesh c -> renumbering N s t ->
    run_events (on (renumbered_mesh s t (surface c)) c) events = option_map (renumbered_state N t) (run_events c events).
Proof.
  intros c s t events N (WF & Ht & _) RN.
  destruct (run_image c (on (renumbered_mesh s t (surface c)) c) (fun v => v) t N (dim (surface c))) with (events := events) as (r & E1 & S & E2); cbn [on surface traction slope steps_before_increment]; auto.
  - apply renumbered_count.
  - apply numbers_well_formed; assumption.
  - apply identity_isometry.
  - intros i Hi. apply RN. exact Hi.
  - intros i Hi. apply numbers_weight; assumption.
  - apply numbers_area; assumption.
  - rewrite E1, E2. reflexivity.
Qed.
Print Assumptions C105_numbers.

(** Another frame (a rotation or a mirror, and a translation): the forces and the traction turn, the total load and the counters
    are the same. *)
Theorem C105_frame :
  forall c Q b events, surface_mesh c -> plate (surface c) -> isometry (dim (surface c)) Q -> length b = dim (surface c) ->
    run_events (in_frame Q b c) events = option_map (turned_state Q) (run_events c events).
Proof.
  intros c Q b events (WF & Ht & _) Pd I Hb. set (N := length (positions (surface c))).
  destruct (run_image c (in_frame Q b c) (matvec Q) (fun i => i) N (dim (surface c))) with (events := events) as (r & E1 & S & E2); cbn [in_frame surface traction slope steps_before_increment]; auto.
  - apply moved_count.
  - apply moved_well_formed. exact WF.
  - apply isometry_linear. exact I.
  - intros i _. apply (moved_weight (dim (surface c))); auto.
  - apply (moved_area (dim (surface c))); auto.
  - rewrite E1, E2. cbn [option_map]. f_equal. unfold image, turned_state. f_equal. destruct S as [[L _] _]. rewrite <- L. generalize (nodal_forces r) as nf. clear.
    induction nf as [|x nf IH]; [reflexivity|]. cbn [length seq map nth]. rewrite <- seq_shift, map_map. f_equal. exact IH.
Qed.
Print Assumptions C105_frame.

(** A surface cut into two parts, each with its own force field: the forces and the total loads add up. *)
Theorem C105_parts :
  forall c rows1 rows2 events, surface_mesh c -> connectivity (surface c) = rows1 ++ rows2 ->
    exists s1 s2, run_events (on (part rows1 (surface c)) c) events = Some s1 /\ run_events (on (part rows2 (surface c)) c) events = Some s2 /\
      run_events c events = Some (joined s1 s2) /\
      is_constant s2 = is_constant s1 /\ current_traction s2 = current_traction s1 /\ steps_since_last_increment s2 = steps_since_last_increment s1.
Proof.
  intros c rows1 rows2 events (WF & Ht & _) E. destruct (part_well_formed _ _ _ E WF) as [W1 W2].
  destruct (run_joined c (on (part rows1 (surface c)) c) (on (part rows2 (surface c)) c) (length (positions (surface c))) (dim (surface c))) with (events := events)
    as (r1 & r2 & E1 & E2 & EJ & _ & _ & AL); cbn [on surface traction slope steps_before_increment]; auto.
  - intros i. apply part_weight; assumption.
  - apply part_area. exact E.
  - exists r1, r2. auto.
Qed.
Print Assumptions C105_parts.

(** What addForce adds to the forces of the body follows. *)
Theorem C105_added :
  forall N D s f, field N D (nodal_forces s) -> field N D f ->
    (forall Q, isometry D Q -> TractionModel.addForce (turned_state Q s) (map (matvec Q) f) = option_map (map (matvec Q)) (TractionModel.addForce s f)) /\
    (forall s' t, renumbering N s' t -> TractionModel.addForce (renumbered_state N t s) (renumbered N t f) = option_map (renumbered N t) (TractionModel.addForce s f)).
Proof.
  intros N D s f Fs Ff.
  assert (AV : forall f g : list (list R), length f = length g -> add_vectors f g = Some (map2 vadd f g)).
  { clear. induction f as [|x f IH]; intros [|y g] H; try discriminate; [reflexivity|]. cbn [add_vectors map2]. rewrite IH by (cbn in H; congruence). reflexivity. }
  unfold TractionModel.addForce. split.
  - intros Q I. cbn [turned_state nodal_forces]. rewrite !AV by (rewrite ?map_length; rewrite (proj1 Fs), (proj1 Ff); reflexivity). cbn [option_map]. f_equal.
    destruct Fs as [L1 F1], Ff as [L2 F2]. revert L1 L2 F1 F2. generalize (nodal_forces s) as g. intros g L1 L2. rewrite <- L1 in L2. clear L1. revert g L2. induction f as [|x f IH]; intros [|y g] L F1 F2; try discriminate; [reflexivity|].
    apply Forall_cons_iff in F1, F2. destruct F1 as [Hy F1], F2 as [Hx F2]. cbn [map map2]. rewrite (Q_add D Q I x y Hx Hy). f_equal. apply IH; [cbn in L; congruence|exact F1|exact F2].
  - intros s' t RN. cbn [renumbered_state nodal_forces]. rewrite !AV by (unfold renumbered; rewrite ?map_length; rewrite ?(proj1 Fs), ?(proj1 Ff); reflexivity). cbn [option_map]. f_equal. unfold renumbered.
    assert (E : forall i, (i < N)%nat -> nth (t i) (map2 vadd f (nodal_forces s)) [] = vadd (nth (t i) f []) (nth (t i) (nodal_forces s) [])).
    { intros i Hi. apply (joined_row N D {| nodal_forces := f; total_load := 0; is_constant := true; current_traction := []; steps_since_last_increment := 0 |} s (t i) Ff Fs). apply RN. exact Hi. }
    assert (G : forall l, Forall (fun i => (i < N)%nat) l -> map2 vadd (map (fun i => nth (t i) f []) l) (map (fun i => nth (t i) (nodal_forces s) []) l) = map (fun i => nth (t i) (map2 vadd f (nodal_forces s)) []) l).
    { induction l as [|i l IH]; intros F; [reflexivity|]. apply Forall_cons_iff in F. destruct F as [Hi F]. cbn [map map2]. rewrite (E i Hi), (IH F). reflexivity. }
    apply G. apply Forall_forall. intros i Hi. apply in_seq in Hi. lia.
Qed.
Print Assumptions C105_added.

(** ** Concrete cases *)

(** Two triangles with a common edge, loaded in three steps; the same surface with its triangles exchanged and turned over. *)
Definition two_triangles : domain := {| dim := 3; kind := Triangle_Linear; positions := [ [0; 0; 0]; [1; 0; 0]; [1; 1; 0]; [0; 1; 1] ]; connectivity := [ [0; 1; 2]; [0; 2; 3] ]%nat |}.
Definition pulled : config := {| surface := two_triangles; traction := [0; 3; 4]; slope := 1 / 3; steps_before_increment := 2 |}.
Definition two_triangles_otherwise : domain := {| dim := 3; kind := Triangle_Linear; positions := positions two_triangles; connectivity := [ [3; 0; 2]; [1; 0; 2] ]%nat |}.
Example C105_hypotheses : surface_mesh pulled /\ plate (surface pulled) /\ same_surface (surface pulled) two_triangles_otherwise.
Proof.
  split; [split; [repeat constructor; cbn; lia|split; reflexivity]|]. split; [split; [left; reflexivity|]; split; [right; reflexivity|repeat constructor]|].
  split; [reflexivity|]. split; [reflexivity|]. split; [reflexivity|]. exists [ [1; 0; 2]; [3; 0; 2] ]%nat. split; [|apply perm_swap].
  constructor; [apply C105_every_listing_of_a_triangle; [reflexivity|apply perm_swap]|]. constructor; [|constructor].
  apply C105_every_listing_of_a_triangle; [reflexivity|]. change [3; 0; 2]%nat with ([3] ++ [0; 2])%nat. change [0; 2; 3]%nat with ([0; 2] ++ [3])%nat. apply Permutation_app_comm.
Qed.
Example C105_listing_example : forall events, run_events (on two_triangles_otherwise pulled) events = run_events pulled events.
Proof. intros events. destruct C105_hypotheses as (A & B & C). apply C105_listing; assumption. Qed.
(** The load is not zero: after one step, a third of the traction is on the surface. *)
Example C105_loaded : exists s, run_events pulled [true] = Some s /\ current_traction s = [0; 1; 4 / 3].
Proof.
  destruct C105_hypotheses as (SM & _ & _). destruct (run_after pulled [true] SM) as (s & E & _ & _ & CT & _).
  - cbn [pulled slope]. apply Rlt_le. unfold EPSILON. apply Rlt_le_trans with (/ 10); [|lra]. apply Rinv_lt_contravar; [|apply IZR_lt; reflexivity]. apply Rmult_lt_0_compat; apply IZR_lt; reflexivity.
  - exists s. split; [exact E|]. rewrite CT. change (increments (steps_before_increment pulled) (count_true [true])) with 1%nat. cbn [INR pulled slope traction map]. rewrite Rmin_right by lra. repeat (f_equal; try field).
Qed.
(** A quarter turn about the third axis. *)
Definition quarter : list (list R) := [ [0; -1; 0]; [1; 0; 0]; [0; 0; 1] ].
Example C105_quarter : isometry 3 quarter.
Proof.
  split; [reflexivity|]. split; [repeat constructor|]. intros v Hv. destruct v as [|x [|y [|z [|] ] ] ]; try discriminate Hv. unfold norm, squaredNorm, vdot, matvec, quarter, vdot, Rsum. cbn [map map2 fold_right]. f_equal. ring.
Qed.
Example C105_frame_example : forall events, run_events (in_frame quarter [5; 6; 7] pulled) events = option_map (turned_state quarter) (run_events pulled events) /\ traction (in_frame quarter [5; 6; 7] pulled) = [-3; 0; 4].
Proof.
  intros events. destruct C105_hypotheses as (A & B & _). split; [apply C105_frame; [exact A|exact B|exact C105_quarter|reflexivity]|].
  cbn [in_frame traction pulled]. unfold matvec, quarter, vdot, Rsum. cbn [map map2 fold_right]. repeat (f_equal; try ring).
Qed.
Definition turned_numbers (i : nat) : nat := (3 - i)%nat.
Example C105_numbers_example : forall events, run_events (on (renumbered_mesh turned_numbers turned_numbers two_triangles) pulled) events = option_map (renumbered_state 4 turned_numbers) (run_events pulled events) /\
  connectivity (renumbered_mesh turned_numbers turned_numbers two_triangles) = [ [3; 2; 1]; [3; 1; 0] ]%nat.
Proof.
  intros events. destruct C105_hypotheses as (A & _ & _). split; [|reflexivity]. apply (C105_numbers pulled turned_numbers turned_numbers events A). change (renumbering 4 turned_numbers turned_numbers). intros i Hi. unfold turned_numbers. lia.
Qed.
Example C105_parts_example : forall events, exists s1 s2, run_events (on (part [ [0; 1; 2] ]%nat two_triangles) pulled) events = Some s1 /\ run_events (on (part [ [0; 2; 3] ]%nat two_triangles) pulled) events = Some s2 /\ run_events pulled events = Some (joined s1 s2).
Proof. intros events. destruct C105_hypotheses as (A & _ & _). destruct (C105_parts pulled [ [0; 1; 2] ]%nat [ [0; 2; 3] ]%nat events A eq_refl) as (s1 & s2 & E1 & E2 & E & _). exists s1, s2. auto. Qed.
