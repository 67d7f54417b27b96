(** Proofs for C105: other numbers, another frame, parts of a surface. *)

From Coq Require Import ZArith Reals Lra Lia.
From Coquelicot Require Import Coquelicot.
From Coq Require Import List Arith Bool Permutation.
From Flocq Require Import Core.Raux.
From Verif Require Import GridGeoModel ShapeModel ShapeSpec ShapeProofs ShapeFieldProofs LinAlg LinAlgProofs RectModel BarycentricModel MappingSpec Sums TractionModel TractionSpec TractionProofs NumberingSpec SurfaceSpec SurfaceProofs SurfaceProofs2.
Import ListNotations.
Open Scope R_scope.

(** ** Other numbers *)
Section Numbers.
Context (s t : nat -> nat) (d : domain).
Let N := length (positions d).
Hypothesis RN : renumbering N s t.
Hypothesis WF : well_formed d.
Let d' := renumbered_mesh s t d.
Lemma renumbered_nth (x : list (list R)) i : (i < N)%nat -> nth i (renumbered N t x) [] = nth (t i) x [].
Proof. intros Hi. unfold renumbered. set (h := fun i => nth (t i) x []). rewrite (nth_indep _ [] (h 0%nat)) by (rewrite map_length, seq_length; exact Hi). rewrite (map_nth h), seq_nth by exact Hi. reflexivity. Qed.
Lemma renumbered_count : length (positions d') = N.
Proof. cbn [d' renumbered_mesh positions]. unfold renumbered. rewrite map_length. apply seq_length. Qed.
Lemma numbers_well_formed : well_formed d'.
Proof.
  unfold well_formed. rewrite renumbered_count. apply Forall_forall. intros row' H. apply in_map_iff in H. destruct H as (row & <- & Hr). destruct (proj1 (Forall_forall _ _) WF row Hr) as [L F].
  split; [rewrite map_length; exact L|]. apply Forall_forall. intros j Hj. apply in_map_iff in Hj. destruct Hj as (i & <- & Hi). apply RN. exact (proj1 (Forall_forall _ _) F i Hi).
Qed.
Lemma numbers_nodes row : In row (connectivity d) -> nodes_of_element d' (map s row) = nodes_of_element d row.
Proof.
  intros Hr. destruct (proj1 (Forall_forall _ _) WF row Hr) as [_ F]. unfold nodes_of_element. rewrite map_map. apply map_ext_in. intros i Hi. destruct (RN i (proj1 (Forall_forall _ _) F i Hi)) as ((H1 & _) & H2 & _).
  cbn [d' renumbered_mesh positions]. fold N. rewrite renumbered_nth by exact H1. rewrite H2. reflexivity.
Qed.
Lemma numbers_area : area d' = area d.
Proof.
  rewrite !area_integral. cbn [d' renumbered_mesh connectivity]. fold d'. rewrite map_map. apply Rsum_ext. intros row Hr. unfold row_integral. cbn [d' renumbered_mesh kind]. fold d'. apply Rsum_ext. intros g _. rewrite numbers_nodes by exact Hr. reflexivity.
Qed.
Lemma numbers_weight p : (p < N)%nat -> node_weight d' p = node_weight d (t p).
Proof.
  intros Hp. rewrite (node_weight_integral d' p numbers_well_formed), (node_weight_integral d (t p) WF). cbn [d' renumbered_mesh connectivity]. fold d'. rewrite map_map. apply Rsum_ext. intros row Hr.
  unfold row_integral. cbn [d' renumbered_mesh kind]. fold d'. apply Rsum_ext. intros g _. rewrite numbers_nodes by exact Hr. f_equal. unfold of_nodes. cbn [d' renumbered_mesh kind]. rewrite !map2_combine.
  destruct (proj1 (Forall_forall _ _) WF row Hr) as [_ F]. revert F. generalize (L (kind d) (fst g)) as ls. clear Hr. induction row as [|i row IH]; intros ls F; [reflexivity|]. destruct ls as [|l ls]; [reflexivity|].
  apply Forall_cons_iff in F. destruct F as [Hi F]. cbn [map combine fst snd]. unfold Rsum in *. cbn [fold_right]. rewrite (IH ls F). f_equal. f_equal.
  destruct (RN i Hi) as (_ & T & _). destruct (RN p Hp) as (_ & _ & S2). destruct (Nat.eqb_spec (s i) p) as [E|E], (Nat.eqb_spec i (t p)) as [E'|E']; try reflexivity; exfalso.
  - apply E'. rewrite <- E. symmetry. exact T.
  - apply E. rewrite E'. exact S2.
Qed.
End Numbers.

Lemma identity_isometry D : linear_isometry D (fun v => v).
Proof. split; auto. Qed.

(** ** Another frame *)
Lemma vdot_add_l a b v D : length a = D -> length b = D -> length v = D -> vdot v (vadd a b) = vdot v a + vdot v b.
Proof. intros A B V. rewrite (vdot_seq v a D), (vdot_seq v b D), (vdot_seq v (vadd a b) D) by (first [assumption | apply vadd_length; assumption]). rewrite <- Rsum_plus. apply Rsum_ext. intros i _. rewrite vadd_nth by congruence. ring. Qed.
Lemma vdot_scale_l a v s D : length a = D -> length v = D -> vdot v (map (fun x => x * s) a) = vdot v a * s.
Proof. intros A V. rewrite (vdot_seq v a D), (vdot_seq v _ D) by (first [assumption | rewrite map_length; assumption]). rewrite <- Rsum_scal_r. apply Rsum_ext. intros i _. rewrite (nth_map0 (fun x => x * s)) by ring. ring. Qed.
Lemma vdot_sym a b : vdot a b = vdot b a.
Proof. unfold vdot. revert b. induction a as [|x a IH]; intros [|y b]; try reflexivity. cbn [map2]. unfold Rsum in *. cbn [fold_right]. rewrite IH. ring. Qed.
Lemma vdot_square a : 0 <= vdot a a.
Proof. unfold vdot. induction a as [|y a IH]; [simpl; lra|]. cbn [map2]. unfold Rsum in *. cbn [fold_right]. nra. Qed.
Section Frame.
Context (D : nat) (Q : list (list R)).
Hypothesis I : isometry D Q.
Lemma Q_length v : length (matvec Q v) = D. Proof. unfold matvec. rewrite map_length. apply I. Qed.
Lemma Q_nth v i : (i < D)%nat -> nth i (matvec Q v) 0 = vdot (nth i Q []) v.
Proof. intros Hi. unfold matvec. set (h := fun row => vdot row v). rewrite (nth_indep _ 0 (h [])) by (rewrite map_length, (proj1 I); exact Hi). apply (map_nth h). Qed.
Lemma Q_row i : (i < D)%nat -> length (nth i Q []) = D.
Proof. intros Hi. apply (proj1 (Forall_forall _ _) (proj1 (proj2 I))), nth_In. rewrite (proj1 I). exact Hi. Qed.
Lemma Q_add v w : length v = D -> length w = D -> matvec Q (vadd v w) = vadd (matvec Q v) (matvec Q w).
Proof.
  intros V W. apply (nth_ext _ _ 0 0); [rewrite Q_length; symmetry; apply vadd_length; apply Q_length|]. intros i Hi. rewrite Q_length in Hi. rewrite vadd_nth by (rewrite !Q_length; reflexivity). rewrite !Q_nth by exact Hi.
  apply (vdot_add_l v w (nth i Q []) D V W). apply Q_row. exact Hi.
Qed.
Lemma Q_scale v s : length v = D -> matvec Q (map (fun x => x * s) v) = map (fun x => x * s) (matvec Q v).
Proof.
  intros V. apply (nth_ext _ _ 0 0); [rewrite map_length, !Q_length; reflexivity|]. intros i Hi. rewrite Q_length in Hi. rewrite (nth_map0 (fun x => x * s)) by ring. rewrite !Q_nth by exact Hi. apply (vdot_scale_l v _ s D V). apply Q_row. exact Hi.
Qed.
Lemma isometry_linear : linear_isometry D (matvec Q).
Proof. split; [intros; apply Q_length|exact Q_add|exact Q_scale|apply I]. Qed.
Lemma Q_square v : length v = D -> vdot (matvec Q v) (matvec Q v) = vdot v v.
Proof.
  intros V. pose proof (proj2 (proj2 I) v V) as H. unfold norm, squaredNorm in H. apply sqrt_inj in H; [exact H| |];
  apply vdot_square.
Qed.
Lemma Q_dot v w : length v = D -> length w = D -> vdot (matvec Q v) (matvec Q w) = vdot v w.
Proof.
  intros V W. pose proof (Q_square (vadd v w) (vadd_length v w D V W)) as H. rewrite Q_add in H by assumption.
  assert (E : forall a b, length a = D -> length b = D -> vdot (vadd a b) (vadd a b) = vdot a a + 2 * vdot a b + vdot b b).
  { intros a b A B. rewrite (vdot_add_l a b (vadd a b) D A B) by (apply vadd_length; assumption). rewrite !(vdot_sym (vadd a b)), !(vdot_add_l a b _ D A B) by assumption. rewrite (vdot_sym b a). ring. }
  rewrite !E in H by (first [assumption | apply Q_length]). rewrite !Q_square in H by assumption. lra.
Qed.
Context (d : domain) (b : list R).
Hypothesis HD : dim d = D.
Hypothesis Hb : length b = D.
Hypothesis Pd : plate d.
Hypothesis WF : well_formed d.
Let d' := moved_mesh Q b d.
Lemma moved_count : length (positions d') = length (positions d). Proof. cbn [d' moved_mesh positions]. apply map_length. Qed.
Lemma moved_well_formed : well_formed d'. Proof. unfold well_formed. rewrite moved_count. exact WF. Qed.
Lemma moved_position i : (i < length (positions d))%nat -> nth i (positions d') [] = vadd (matvec Q (nth i (positions d) [])) b.
Proof. intros Hi. cbn [d' moved_mesh positions]. set (h := fun p => vadd (matvec Q p) b). rewrite (nth_indep _ [] (h [])) by (rewrite map_length; exact Hi). apply (map_nth h). Qed.
Lemma moved_tangent row xi k : In row (connectivity d) -> length xi = 2%nat -> (k < 2)%nat -> tangent (dim d') (kind d') (nodes_of_element d' row) xi k = matvec Q (tangent (dim d) (kind d) (nodes_of_element d row) xi k).
Proof.
  intros Hr Hx Hk. destruct (proj1 (Forall_forall _ _) WF row Hr) as [Lr Fr]. pose proof (plate_canonical d Pd) as C2. cbn [d' moved_mesh dim kind]. fold d'.
  apply (nth_ext _ _ 0 0); [rewrite tangent_length, Q_length; exact HD|]. intros i Hi. rewrite tangent_length, HD in Hi. rewrite Q_nth by exact Hi. rewrite HD.
  assert (Ln : forall e, length (nodes_of_element e row) = NumberOfNodes (kind d)) by (intros e; unfold nodes_of_element; rewrite map_length; exact Lr).
  rewrite tangent_nth by (first [assumption | apply Ln]). rewrite (vdot_seq _ _ D) by (first [apply Q_row; exact Hi | apply tangent_length]).
  set (n := NumberOfNodes (kind d)) in *.
  transitivity (Rsum (map (fun a => Rsum (map (fun j => nth j (nth i Q []) 0 * (nth j (nth a (nodes_of_element d row) []) 0 * slope_of (kind d) xi a k)) (seq 0 D)) + nth i b 0 * slope_of (kind d) xi a k) (seq 0 n))).
  - apply Rsum_ext. intros a Ha. apply in_seq in Ha. assert (Ha2 : (a < n)%nat) by lia.
    assert (Nn : forall e, nth a (nodes_of_element e row) [] = nth (nth a row 0%nat) (positions e) []).
    { intros e. unfold nodes_of_element. set (h := fun i => nth i (positions e) []). rewrite (nth_indep _ [] (h 0%nat)) by (rewrite map_length, Lr; exact Ha2). apply (map_nth h). }
    rewrite !Nn. assert (Hi2 : (nth a row 0 < length (positions d))%nat) by (apply (proj1 (Forall_forall _ _) Fr), nth_In; rewrite Lr; exact Ha2).
    rewrite moved_position by exact Hi2. rewrite vadd_nth by (rewrite Q_length, Hb; reflexivity). rewrite Q_nth by exact Hi.
    assert (Lp : length (nth (nth a row 0%nat) (positions d) []) = D) by (rewrite <- HD; apply (proj1 (Forall_forall _ _) (proj2 (proj2 Pd))), nth_In, Hi2).
    rewrite (vdot_seq _ _ D) by (first [apply Q_row; exact Hi | exact Lp]). rewrite Rmult_plus_distr_r, <- Rsum_scal_r. f_equal. apply Rsum_ext. intros j _. ring.
  - rewrite Rsum_plus, Rsum_scal_l.
    assert (Z : Rsum (map (fun a => slope_of (kind d) xi a k) (seq 0 n)) = 0).
    { rewrite <- (derivatives_sum_to_zero (kind d) xi k); [|rewrite C2; exact Hx|rewrite C2; exact Hk]. unfold slope_of, n. rewrite <- (length_dL (kind d) xi). f_equal. generalize (dL (kind d) xi) as l. clear.
      induction l as [|x l IH]; [reflexivity|]. cbn [length seq map nth]. rewrite <- seq_shift, map_map. f_equal. exact IH. }
    rewrite Z, Rmult_0_r, Rplus_0_r, Rsum_swap. apply Rsum_ext. intros j Hj. apply in_seq in Hj. rewrite Rsum_scal_l. rewrite tangent_nth by (first [assumption | apply Ln | lia]). reflexivity.
Qed.
Lemma moved_factor row g : In row (connectivity d) -> In g (gauss_nodes (kind d)) -> area_factor d' (nodes_of_element d' row) (fst g) = area_factor d (nodes_of_element d row) (fst g).
Proof.
  intros Hr Hg. destruct (point2 (kind d) g (plate_canonical d Pd) Hg) as (u & v & E). rewrite E. rewrite !area_gram by (first [apply Pd | apply (plate_canonical d Pd)]). f_equal.
  rewrite !moved_tangent by (first [assumption | reflexivity | lia]). unfold gram. rewrite !Q_dot by (rewrite tangent_length; exact HD). reflexivity.
Qed.
Lemma moved_area : area d' = area d.
Proof. rewrite !area_integral. cbn [d' moved_mesh connectivity]. fold d'. apply Rsum_ext. intros row Hr. unfold row_integral. cbn [d' moved_mesh kind]. fold d'. apply Rsum_ext. intros g Hg. rewrite moved_factor by assumption. reflexivity. Qed.
Lemma moved_weight p : node_weight d' p = node_weight d p.
Proof.
  rewrite (node_weight_integral d' p moved_well_formed), (node_weight_integral d p WF). cbn [d' moved_mesh connectivity]. fold d'. apply Rsum_ext. intros row Hr. unfold row_integral. cbn [d' moved_mesh kind]. fold d'.
  apply Rsum_ext. intros g Hg. rewrite moved_factor by assumption. reflexivity.
Qed.
End Frame.

(** ** Parts *)
Section Parts.
Context (c c1 c2 : config) (N D : nat).
Hypothesis HN : length (positions (surface c)) = N.
Hypothesis HN1 : length (positions (surface c1)) = N.
Hypothesis HN2 : length (positions (surface c2)) = N.
Hypothesis HD : dim (surface c) = D.
Hypothesis HD1 : dim (surface c1) = D.
Hypothesis HD2 : dim (surface c2) = D.
Hypothesis WF : well_formed (surface c).
Hypothesis WF1 : well_formed (surface c1).
Hypothesis WF2 : well_formed (surface c2).
Hypothesis Ht : length (traction c) = D.
Hypothesis T1 : traction c1 = traction c.
Hypothesis T2 : traction c2 = traction c.
Hypothesis S1 : slope c1 = slope c.
Hypothesis S2 : slope c2 = slope c.
Hypothesis B1 : steps_before_increment c1 = steps_before_increment c.
Hypothesis B2 : steps_before_increment c2 = steps_before_increment c.
Hypothesis W : forall i, node_weight (surface c) i = node_weight (surface c1) i + node_weight (surface c2) i.
Hypothesis A : area (surface c) = area (surface c1) + area (surface c2).
(** The same members apart from the loads. *)
Definition alike (s1 s2 : state) : Prop := is_constant s2 = is_constant s1 /\ current_traction s2 = current_traction s1 /\ steps_since_last_increment s2 = steps_since_last_increment s1.
Lemma joined_row s1 s2 i : field N D (nodal_forces s1) -> field N D (nodal_forces s2) -> (i < N)%nat -> nth i (nodal_forces (joined s1 s2)) [] = vadd (nth i (nodal_forces s1) []) (nth i (nodal_forces s2) []).
Proof.
  intros [L1 _] [L2 _] Hi. cbn [joined nodal_forces]. revert i Hi L1 L2. generalize (nodal_forces s1) (nodal_forces s2) N. clear. intros f g. revert g. induction f as [|x f IH]; intros [|y g] n i Hi L1 L2; cbn in L1, L2; try lia.
  destruct i; [reflexivity|]. cbn [map2 nth]. apply (IH g (n - 1)%nat); lia.
Qed.
Lemma joined_field s1 s2 : field N D (nodal_forces s1) -> field N D (nodal_forces s2) -> field N D (nodal_forces (joined s1 s2)).
Proof.
  intros [L1 F1] [L2 F2]. cbn [joined nodal_forces]. split; [rewrite LinAlgProofs.map2_length; congruence|]. apply Forall_forall. intros v Hv. rewrite map2_combine in Hv. apply in_map_iff in Hv. destruct Hv as ([x y] & <- & Hi). cbn [fst snd].
  apply vadd_length; [exact (proj1 (Forall_forall _ _) F1 x (in_combine_l _ _ _ _ Hi))|exact (proj1 (Forall_forall _ _) F2 y (in_combine_r _ _ _ _ Hi))].
Qed.
Lemma increment_joined s1 s2 u : sound N D s1 -> sound N D s2 -> alike s1 s2 -> length u = D ->
  exists r1 r2, increment_load c1 s1 u = Some r1 /\ increment_load c2 s2 u = Some r2 /\ increment_load c (joined s1 s2) u = Some (joined r1 r2) /\ sound N D r1 /\ sound N D r2 /\ alike r1 r2.
Proof.
  intros [F1 C1] [F2 C2] (A1 & A2 & A3) Hu.
  destruct (increment_load_spec c1 s1 u WF1) as (r1 & E1 & G1 & N1 & L1 & I1 & K1 & J1); [congruence|rewrite HN1, HD1; exact F1|].
  destruct (increment_load_spec c2 s2 u WF2) as (r2 & E2 & G2 & N2 & L2 & I2 & K2 & J2); [congruence|rewrite HN2, HD2; exact F2|].
  destruct (increment_load_spec c (joined s1 s2) u WF) as (r & E & G & NN & LL & I & K & J); [congruence|rewrite HN, HD; apply joined_field; assumption|].
  rewrite HN1, HD1 in G1. rewrite HN2, HD2 in G2. rewrite HN, HD in G. exists r1, r2. split; [exact E1|]. split; [exact E2|]. split; [|split; [split; [exact G1|congruence]|split; [split; [exact G2|congruence]|repeat split; congruence] ] ].
  rewrite E. f_equal. assert (NF : nodal_forces r = nodal_forces (joined r1 r2)).
  { apply (fields_same N D _ _ G (joined_field _ _ G1 G2)). intros i Hi k. rewrite NN, (joined_row s1 s2 i F1 F2 Hi), (joined_row r1 r2 i G1 G2 Hi).
    rewrite !vadd_nth by (rewrite !(field_row N D) by assumption; reflexivity). rewrite N1, N2, W. ring. }
  destruct r as [nf tl ic ct ss]. unfold joined in *. cbn [nodal_forces total_load is_constant current_traction steps_since_last_increment] in *. f_equal; try congruence.
  rewrite LL, L1, L2, A, !norm_scale. pose proof (area_nonneg (surface c1)) as P1. pose proof (area_nonneg (surface c2)) as P2. rewrite !Rabs_pos_eq by lra. ring.
Qed.
Lemma vadd_zero : vadd (repeat 0 D) (repeat 0 D) = repeat 0 D.
Proof. clear. unfold vadd. induction D as [|n IH]; [reflexivity|]. simpl. rewrite IH. f_equal. ring. Qed.
Lemma init_joined : exists r1 r2, init c1 = Some r1 /\ init c2 = Some r2 /\ init c = Some (joined r1 r2) /\ sound N D r1 /\ sound N D r2 /\ alike r1 r2.
Proof.
  unfold init. rewrite HN, HN1, HN2, HD, HD1, HD2, S1, S2, T1, T2, B1, B2. set (k := (_ && _)%bool). set (s0 := {| nodal_forces := _ |}).
  assert (S0 : sound N D s0) by (split; [apply zero_field|apply repeat_length]). assert (AL : alike s0 s0) by (repeat split).
  assert (J0 : joined s0 s0 = s0).
  { unfold joined, s0. cbn [nodal_forces total_load is_constant current_traction steps_since_last_increment]. f_equal; [|ring].
    clear. induction N as [|n IH]; [reflexivity|]. cbn [repeat map2]. rewrite IH. f_equal. apply vadd_zero. }
  destruct k.
  - pose proof (increment_joined s0 s0 (traction c) S0 S0 AL Ht) as P. rewrite J0 in P. exact P.
  - exists s0, s0. rewrite J0. auto 8.
Qed.
Lemma event_joined s1 s2 e : sound N D s1 -> sound N D s2 -> alike s1 s2 ->
  exists r1 r2, handleEvent c1 s1 e = Some r1 /\ handleEvent c2 s2 e = Some r2 /\ handleEvent c (joined s1 s2) e = Some (joined r1 r2) /\ sound N D r1 /\ sound N D r2 /\ alike r1 r2.
Proof.
  intros U1 U2 AL. pose proof AL as (A1 & A2 & A3). unfold handleEvent. cbn [joined is_constant current_traction steps_since_last_increment total_load nodal_forces]. rewrite T1, T2, S1, S2, B1, B2, A1, A2, A3.
  destruct (negb e); [exists s1, s2; auto 8|]. destruct (is_constant s1) eqn:IC; [exists s1, s2; auto 8|]. destruct (Rle_bool _ _); [exists s1, s2; auto 8|]. destruct (Nat.ltb _ _).
  { do 2 eexists. split; [reflexivity|]. split; [reflexivity|]. split; [reflexivity|]. split; [exact U1|]. split; [split; [exact (proj1 U2)|exact (proj2 U1)]|]. repeat split. }
  set (u := if Rlt_bool _ _ then _ else _).
  assert (Hu : length u = D) by (unfold u; destruct (Rlt_bool _ _); [rewrite vminus_vadd; apply vadd_length; [exact Ht|rewrite map_length; apply U1]|rewrite map_length; exact Ht]).
  set (q1 := {| nodal_forces := nodal_forces s1; total_load := total_load s1; is_constant := false; current_traction := vadd (current_traction s1) u; steps_since_last_increment := 0 |}).
  set (q2 := {| nodal_forces := nodal_forces s2; total_load := total_load s2; is_constant := false; current_traction := vadd (current_traction s1) u; steps_since_last_increment := 0 |}).
  assert (V1 : sound N D q1) by (split; [apply U1|apply vadd_length; [apply U1|exact Hu] ]). assert (V2 : sound N D q2) by (split; [apply U2|apply vadd_length; [apply U1|exact Hu] ]).
  destruct (increment_joined q1 q2 u V1 V2 ltac:(repeat split) Hu) as (r1 & r2 & E1 & E2 & E & R). exists r1, r2. split; [exact E1|]. split; [exact E2|]. split; [exact E|exact R].
Qed.
Lemma run_joined events : exists r1 r2, run_events c1 events = Some r1 /\ run_events c2 events = Some r2 /\ run_events c events = Some (joined r1 r2) /\ sound N D r1 /\ sound N D r2 /\ alike r1 r2.
Proof.
  unfold run_events. destruct init_joined as (s1 & s2 & -> & -> & -> & U1 & U2 & AL). revert s1 s2 U1 U2 AL. induction events as [|e events IH]; intros s1 s2 U1 U2 AL; cbn [fold_left]; [exists s1, s2; auto 8|].
  destruct (event_joined s1 s2 e U1 U2 AL) as (r1 & r2 & -> & -> & -> & V1 & V2 & BL). apply IH; assumption.
Qed.
End Parts.
Lemma part_weight d rows1 rows2 j : well_formed d -> connectivity d = rows1 ++ rows2 -> node_weight d j = node_weight (part rows1 d) j + node_weight (part rows2 d) j.
Proof. intros _ E. unfold node_weight, weights. rewrite E, flat_map_app, map_app, Rsum_app. reflexivity. Qed.
Lemma part_area d rows1 rows2 : connectivity d = rows1 ++ rows2 -> area d = area (part rows1 d) + area (part rows2 d).
Proof. intros E. unfold area, surface_integral. rewrite E, map_app, Rsum_app. reflexivity. Qed.
Lemma part_well_formed d rows1 rows2 : connectivity d = rows1 ++ rows2 -> well_formed d -> well_formed (part rows1 d) /\ well_formed (part rows2 d).
Proof. intros E WF. unfold well_formed in WF. rewrite E in WF. apply Forall_app in WF. exact WF. Qed.
