(** Proofs for C108: the increments of the forces, and the loads, in other units. *)

From Coq Require Import ZArith Reals Lra Lia.
From Coquelicot Require Import Coquelicot.
From Coq Require Import List Arith Bool.
From Flocq Require Import Core.Raux.
From Verif Require Import GridGeoModel ShapeModel ShapeSpec ShapeProofs ShapeFieldProofs LinAlg LinAlgProofs RectModel RectProofs BarycentricModel MappingSpec MappingProofs TensorModel TensorSpec
  MaterialModel MaterialSpec MaterialProofs SparseModel SparseProofs Sums TractionModel TractionSpec TractionProofs HyperModel HyperSpec HyperProofs HyperProofs2 HyperProofs3 HyperProofs4 HyperProperties
  EnergySpec EnergyProofs UnitsSpec UnitsProofs.
From Verif Require Import ObjectivityProofs2.
Import ListNotations.
Open Scope R_scope.
Notation scaled := UnitsSpec.scaled.

Lemma tangent_scaled b m J C al be : entries (PK2_stress_jacobian (in_pressure_unit b m) J C) al be = b * entries (PK2_stress_jacobian m J C) al be.
Proof.
  unfold PK2_stress_jacobian, in_pressure_unit. cbn [kind_of mu lambda]. destruct (kind_of m).
  - unfold symmetric_dyad_1, symmetric_dyad_2, mscale, madd, vscale, vadd. generalize (inverse C). intros D. cbn [map map2].
    do 6 (destruct al as [|al]; [do 6 (destruct be as [|be]; [cbn [entries nth]; unfold entries; cbn [nth]; ring|]); unfold entries; cbn [nth]; destruct be; cbn [nth]; ring|]). unfold entries. cbn [nth]. destruct al, be; cbn [nth]; ring.
  - unfold elasticity_matrix. cbn [mu lambda].
    do 6 (destruct al as [|al]; [do 6 (destruct be as [|be]; [unfold entries; cbn [nth]; ring|]); unfold entries; cbn [nth]; destruct be; cbn [nth]; ring|]). unfold entries. cbn [nth]. destruct al, be; cbn [nth]; ring.
Qed.
Lemma B_scaled F c v w al i : (forall k, (k < 3)%nat -> nth k w 0 = c * nth k v 0) -> entries (B F w) al i = c * entries (B F v) al i.
Proof.
  intros H. unfold B. rewrite !H by lia. cbv zeta. do 6 (destruct al as [|al]; [do 3 (destruct i as [|i]; [unfold entries; cbn [nth]; ring|]); unfold entries; cbn [nth]; destruct i; cbn [nth]; ring|]). unfold entries. cbn [nth]. destruct al, i; cbn [nth]; ring.
Qed.

Section Increments.
Context (a b : R) (m : material) (d : domain) (N : nat).
Hypothesis Ha : 0 < a.
Hypothesis Sd : solid d.
Hypothesis RG : regular d.
Hypothesis LN : length (positions d) = N.
Let d' := in_length_unit a d.
Let m' := in_pressure_unit b m.

Lemma unit_block x row p q i j : In row (connectivity d) -> (p < length row)%nat -> (q < length row)%nat -> (i < 3)%nat -> (j < 3)%nat ->
  entries (block m' d' (scaled a x) row p q) i j = b * a * entries (block m d x row p q) i j.
Proof.
  intros Hr Hp Hq Hi Hj. destruct (solid_row d row Sd Hr) as [Hl _]. rewrite !block_spec by assumption. unfold quad. rewrite !get_gauss_nodes_alt, !map_map. change (kind d') with (kind d).
  rewrite <- Rsum_scal_l. apply Rsum_ext. intros g Hg. rewrite Hl in Hp, Hq.
  assert (G : forall x, length (gather x row) = NumberOfNodes (kind d)) by (intros y; unfold gather; rewrite map_length; exact Hl).
  destruct (gauss_block_spec m' (gather (scaled a x) row) _ _ p q (G _) (the_node_sound d' row g) Hp Hq) as [_ ->]; [|assumption|assumption].
  destruct (gauss_block_spec m (gather x row) _ _ p q (G _) (the_node_sound d row g) Hp Hq) as [_ ->]; [|assumption|assumption].
  change (NumberOfNodes (kind d')) with (NumberOfNodes (kind d)). unfold d'. rewrite (unit_gradient a d N Ha Sd RG LN) by assumption. rewrite (unit_det a d Ha Sd) by exact Hr. change (weight (the_node (in_length_unit a d) row g)) with (weight (the_node d row g)).
  set (F := of_entries _). unfold m'. rewrite stress_scaled by apply of_entries_matrix3. unfold geometric, material_block.
  rewrite (sum3_ext _ (fun k => sum3 (fun l => (/ a * / a * b) * (entries (dN_dx (the_node d row g)) p k * entries (PK2_stress m (det F) (cauchy_green F)) k l * entries (dN_dx (the_node d row g)) q l)))).
  2:{ intros k Hk. apply sum3_ext. intros l Hl'. rewrite scaled_entries, !(unit_node a d Ha Sd RG) by assumption. ring. }
  assert (EB : forall n, (n < NumberOfNodes (kind d))%nat -> forall al i, entries (B F (nth n (dN_dx (the_node (in_length_unit a d) row g)) [])) al i = / a * entries (B F (nth n (dN_dx (the_node d row g)) [])) al i).
  { intros n Hn al i'. apply B_scaled. intros k Hk. exact (unit_node a d Ha Sd RG row g n k Hr Hg Hn Hk). }
  rewrite (sum6_ext _ (fun al => / a * / a * b * (entries (B F (nth p (dN_dx (the_node d row g)) [])) al i * sum6 (fun be => entries (PK2_stress_jacobian m (det F) (cauchy_green F)) al be * entries (B F (nth q (dN_dx (the_node d row g)) [])) be j)))).
  2:{ intros al _. rewrite EB by exact Hp. unfold sum6. rewrite !tangent_scaled, !EB by exact Hq. ring. }
  unfold sum6, sum3. field. lra.
Qed.
Lemma unit_increments k x v df : distinct_nodes d -> field N 3 x -> field N 3 v -> field N 3 df ->
  exists df', field N 3 df' /\ addDForce (assemble_stiffness m d x) (N * 3) k (concat v) (concat df) = Some (concat df') /\
    addDForce (assemble_stiffness m' d' (scaled a x)) (N * 3) k (concat (scaled a v)) (concat (scaled (b * (a * a)) df)) = Some (concat (scaled (b * (a * a)) df')).
Proof.
  intros ND Fx Fv Fd. pose proof (scaled_field a N v Fv) as Ftv. pose proof (scaled_field (b * (a * a)) N df Fd) as Ftd.
  assert (Lc : forall h, field N 3 h -> length (concat h) = (N * 3)%nat) by (intros h [L F]; rewrite concat_length3 by exact F; lia).
  destruct (HyperProofs4.addDForce_spec _ (N * 3) k (concat v) (concat df) (assemble_inside m d x N (proj1 Sd) LN) (Lc _ Fd)) as (D1 & E1 & L1 & P1).
  destruct (HyperProofs4.addDForce_spec _ (N * 3) k (concat (scaled a v)) (concat (scaled (b * (a * a)) df)) (assemble_inside m' d' (scaled a x) N (proj1 (unit_solid a d Sd)) (unit_length a d N LN)) (Lc _ Ftd)) as (D2 & E2 & L2 & P2).
  pose proof (grouped_field N D1) as F1. exists (grouped N D1). split; [exact F1|]. rewrite E1, E2. split; f_equal.
  - apply (flat_equal N); [exact L1|exact F1|]. intros p c Hp Hc. symmetry. apply grouped_entries; assumption.
  - apply (flat_equal N); [exact L2|apply scaled_field, F1|]. intros p c Hp Hc. rewrite scaled_entries, grouped_entries by assumption.
    rewrite P2, (operator_row m' d' (scaled a x) (scaled a v) N p c (proj1 (unit_solid a d Sd)) ND Ftv Hc), concat_nth by (first [apply Ftd | assumption]).
    rewrite P1, (operator_row m d x v N p c (proj1 Sd) ND Fv Hc), concat_nth by (first [apply Fd | assumption]). change (connectivity d') with (connectivity d).
    rewrite (Rsum_ext _ _ (fun row => b * (a * a) * Rsum (map (fun i => if Nat.eqb (nth i row 0%nat) p then Rsum (map (fun j => sum3 (fun l => entries (block m d x row i j) c l * entries v (nth j row 0%nat) l)) (seq 0 (length row))) else 0)
      (seq 0 (length row))))).
    + rewrite Rsum_scal_l. pose proof (scaled_entries (b * (a * a)) df p c) as ED. unfold entries in ED |- *. try rewrite ED. ring.
    + intros row Hr. rewrite <- Rsum_scal_l. apply Rsum_ext. intros i Hi. apply in_seq in Hi. destruct (Nat.eqb _ p); [|ring]. rewrite <- Rsum_scal_l. apply Rsum_ext. intros j Hj. apply in_seq in Hj.
      rewrite (sum3_ext _ (fun l => b * (a * a) * (entries (block m d x row i j) c l * entries v (nth j row 0%nat) l))); [unfold sum3; ring|].
      intros l Hl. rewrite unit_block by (first [assumption | lia]). rewrite scaled_entries. ring.
Qed.
End Increments.

(** ** Loads *)
Section Loads.
Context (a b : R) (c : config).
Hypothesis Ha : 0 < a.
Hypothesis Hb : 0 < b.
Hypothesis Sc : surface_mesh c.
Hypothesis D3 : dim (surface c) = 3%nat.
Let c' := load_in_units a b c.
Let state_in_units := state_in_units a b.

Lemma norm_vscale k v : 0 <= k -> norm (vscale k v) = k * norm v.
Proof. intros H. transitivity (norm (map (fun x => x * k) v)); [f_equal; apply map_ext; intros x; ring|]. rewrite norm_scale, Rabs_pos_eq by exact H. reflexivity. Qed.
Lemma area_scaled row g : In row (connectivity (surface c)) -> In g (gauss_nodes (kind (surface c))) ->
  area_factor (surface c') (nodes_of_element (surface c') row) (fst g) = a * a * area_factor (surface c) (nodes_of_element (surface c) row) (fst g).
Proof.
  intros Hr Hg. unfold area_factor. change (dim (surface c')) with (dim (surface c)). change (kind (surface c')) with (kind (surface c)). rewrite D3, (proj2 (proj2 Sc)). cbn [Nat.eqb andb].
  change (nodes_of_element (surface c') row) with (gather (scaled a (positions (surface c))) row). rewrite gather_scaled, jacobian_scaled.
  change (gather (positions (surface c)) row) with (nodes_of_element (surface c) row). set (J := jacobian _ _ _ _).
  assert (EC : forall k, column (scaled a J) k = vscale a (column J k)).
  { intros k. unfold column, scaled, vscale. rewrite !map_map. apply map_ext. intros r. exact (vscale_nth a r k). }
  rewrite !EC. assert (EX : forall u v, vcross (vscale a u) (vscale a v) = vscale (a * a) (vcross u v)).
  { intros u v. unfold vcross. rewrite !vscale_nth. cbn [vscale map]. repeat (apply f_equal2; [ring|]). reflexivity. }
  rewrite EX, norm_vscale by nra. rewrite Rabs_mult, (Rabs_pos_eq (a * a)) by nra. reflexivity.
Qed.
Lemma contributions_scaled t : contributions (surface c') (vscale b t) = map (fun p => (fst p, vscale (b * (a * a)) (snd p))) (contributions (surface c) t).
Proof.
  unfold contributions. change (connectivity (surface c')) with (connectivity (surface c)). rewrite map_flat_map, !flat_map_concat_map. f_equal. apply map_ext_in. intros row Hr.
  rewrite map_flat_map, !flat_map_concat_map. f_equal. unfold gauss_nodes_of. rewrite !map_map. change (kind (surface c')) with (kind (surface c)). apply map_ext_in. intros g Hg.
  rewrite area_scaled by assumption. rewrite !map2_combine, map_map. apply map_ext. intros [node n]. cbn [fst snd]. f_equal. unfold vscale. rewrite !map_map. apply map_ext. intros z. ring.
Qed.
Lemma vscale_vadd k : forall u v, vscale k (vadd u v) = vadd (vscale k u) (vscale k v).
Proof. unfold vscale, vadd. induction u as [|x u IH]; intros [|y v]; cbn [map map2]; try reflexivity. rewrite IH. f_equal. ring. Qed.
Lemma vscale_vminus k : forall u v, vscale k (vminus u v) = vminus (vscale k u) (vscale k v).
Proof. unfold vscale, vminus. induction u as [|x u IH]; intros [|y v]; cbn [map map2]; try reflexivity. rewrite IH. f_equal. ring. Qed.
Lemma vscale_zero k n : vscale k (repeat 0 n) = repeat 0 n.
Proof. induction n as [|n IH]; [reflexivity|]. cbn [repeat vscale map]. unfold vscale in IH. rewrite IH. f_equal. ring. Qed.
Lemma add_at_scaled k : forall f i x, add_at (scaled k f) i (vscale k x) = option_map (scaled k) (add_at f i x).
Proof.
  induction f as [|y f IH]; intros i x; [reflexivity|]. destruct i as [|i]; cbn [scaled map add_at option_map].
  - rewrite vscale_vadd. reflexivity.
  - change (map (vscale k) f) with (scaled k f). rewrite IH. destruct (add_at f i x); reflexivity.
Qed.
Lemma add_all_scaled k : forall l f, add_all (scaled k f) (map (fun p => (fst p, vscale k (snd p))) l) = option_map (scaled k) (add_all f l).
Proof.
  assert (H : forall (l : list (nat * list R)) f, fold_left (fun f p => match f with Some f => add_at f (fst p) (snd p) | None => None end) (map (fun p => (fst p, vscale k (snd p))) l) (option_map (scaled k) f) =
    option_map (scaled k) (fold_left (fun f p => match f with Some f => add_at f (fst p) (snd p) | None => None end) l f)).
  { induction l as [|p l IH]; intros f; [reflexivity|]. cbn [map fold_left fst snd]. destruct f as [f|]; cbn [option_map].
    - rewrite add_at_scaled. apply IH.
    - apply (IH None). }
  intros l f. exact (H l (Some f)).
Qed.
Lemma load_scaled k : forall (l : list (nat * list R)) v, fold_left (fun load p => vadd load (snd p)) (map (fun p => (fst p, vscale k (snd p))) l) (vscale k v) = vscale k (fold_left (fun load p => vadd load (snd p)) l v).
Proof. induction l as [|p l IH]; intros v; [reflexivity|]. cbn [map fold_left snd]. rewrite <- vscale_vadd. apply IH. Qed.
Lemma increment_scaled s t : increment_load c' (state_in_units s) (vscale b t) = option_map state_in_units (increment_load c s t).
Proof.
  unfold increment_load. rewrite contributions_scaled. cbn [nodal_forces state_in_units UnitsSpec.state_in_units]. rewrite add_all_scaled. destruct (add_all (nodal_forces s) _) as [f|]; [|reflexivity]. cbn [option_map]. unfold state_in_units, UnitsSpec.state_in_units. cbn.
  f_equal. f_equal. change (dim (surface c')) with (dim (surface c)). rewrite <- (vscale_zero (b * (a * a))) at 1. rewrite load_scaled, norm_vscale by nra. ring.
Qed.
Lemma init_scaled : init c' = option_map state_in_units (init c).
Proof.
  unfold init. change (slope c') with (slope c). change (dim (surface c')) with (dim (surface c)). change (steps_before_increment c') with (steps_before_increment c). change (traction c') with (vscale b (traction c)).
  assert (EL : length (positions (surface c')) = length (positions (surface c))) by apply map_length. rewrite EL.
  set (s := {| nodal_forces := repeat _ _ |}). assert (ES : state_in_units s = s).
  { unfold s, state_in_units, UnitsSpec.state_in_units. cbn. f_equal; [|ring|apply vscale_zero]. generalize (length (positions (surface c))). intros n. induction n as [|n IH]; [reflexivity|]. cbn [repeat scaled map]. unfold scaled in IH. rewrite IH, vscale_zero. reflexivity. }
  destruct (_ && _)%bool; [|cbn [option_map]; rewrite ES; reflexivity]. rewrite <- ES at 1. apply increment_scaled.
Qed.
Lemma Rle_bool_scaled x y : Rle_bool (b * x) (b * y) = Rle_bool x y.
Proof. destruct (Rle_bool_spec x y), (Rle_bool_spec (b * x) (b * y)); try reflexivity; exfalso; nra. Qed.
Lemma Rlt_bool_scaled x y : Rlt_bool (b * x) (b * y) = Rlt_bool x y.
Proof. destruct (Rlt_bool_spec x y), (Rlt_bool_spec (b * x) (b * y)); try reflexivity; exfalso; nra. Qed.
Lemma event_scaled s begin : handleEvent c' (state_in_units s) begin = option_map state_in_units (handleEvent c s begin).
Proof.
  unfold handleEvent. destruct begin; [|reflexivity]. cbn [negb]. change (is_constant (state_in_units s)) with (is_constant s). destruct (is_constant s) eqn:EC; [reflexivity|].
  change (traction c') with (vscale b (traction c)). change (current_traction (state_in_units s)) with (vscale b (current_traction s)). rewrite !norm_vscale by lra. rewrite Rle_bool_scaled.
  destruct (Rle_bool _ _); [reflexivity|]. cbv zeta. change (steps_since_last_increment (state_in_units s)) with (steps_since_last_increment s). change (steps_before_increment c') with (steps_before_increment c).
  destruct (Nat.ltb _ _); [reflexivity|]. change (slope c') with (slope c).
  assert (EI : map (fun x => x * slope c) (vscale b (traction c)) = vscale b (map (fun x => x * slope c) (traction c))) by (unfold vscale; rewrite !map_map; apply map_ext; intros; ring).
  rewrite EI, <- vscale_vadd, norm_vscale by lra. rewrite Rlt_bool_scaled, <- vscale_vminus.
  destruct (Rlt_bool _ _); rewrite <- vscale_vadd; rewrite <- increment_scaled; reflexivity.
Qed.
Lemma run_scaled events : run_events c' events = option_map state_in_units (run_events c events).
Proof.
  unfold run_events. rewrite init_scaled. generalize (init c). induction events as [|e events IH]; intros s; [reflexivity|]. cbn [fold_left]. rewrite <- IH. f_equal. destruct s as [s|]; cbn [option_map]; [apply event_scaled|reflexivity].
Qed.
Lemma push_scaled k : forall f g, add_vectors (scaled k f) (scaled k g) = option_map (scaled k) (add_vectors f g).
Proof.
  induction f as [|x f IH]; intros [|y g]; try reflexivity. cbn [scaled map add_vectors]. change (map (vscale k) f) with (scaled k f). change (map (vscale k) g) with (scaled k g). rewrite IH, <- vscale_vadd. destruct (add_vectors f g); reflexivity.
Qed.
End Loads.
