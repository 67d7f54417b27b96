(** C62, C63: the traction force field. *)

From Coq Require Import ZArith Reals Lra Lia.
From Coquelicot Require Import Coquelicot.
From Coq Require Import List Arith Bool.
From Flocq Require Import Core.Raux.
From Verif Require Import GridGeoModel ShapeModel ShapeSpec ShapeProofs ShapeFieldProofs LinAlg RectModel RectProofs LinAlgProofs
  BarycentricModel Sums MappingSpec MappingProofs TractionModel TractionSpec TractionProofs.
Import ListNotations.
Open Scope R_scope.

(** ** C62 *)

(** The nodal forces added by a traction t do, on every nodal velocity field v, the work of the traction on the
    interpolated velocity integrated over the surface. *)
Theorem C62_virtual_work : forall c s t, well_formed (surface c) -> length t = dim (surface c) ->
  field (length (positions (surface c))) (dim (surface c)) (nodal_forces s) ->
  exists s', increment_load c s t = Some s' /\ field (length (positions (surface c))) (dim (surface c)) (nodal_forces s') /\
    forall v, field (length (positions (surface c))) (dim (surface c)) v ->
      power (nodal_forces s') v = power (nodal_forces s) v +
        surface_integral (surface c) (fun row xi => Rsum (map2 Rmult t (field_at (surface c) (dim (surface c)) v row xi))).
Proof.
  intros c s t WF Ht HF. destruct (increment_load_spec c s t WF Ht HF) as (s' & E & F & N & _). exists s'. split; [exact E|]. split; [exact F|].
  intros v Hv. set (d := surface c) in *. set (D := dim d) in *. set (n := length (positions d)) in *.
  rewrite (power_alt n D _ v F Hv), (power_alt n D _ v HF Hv).
  transitivity (Rsum (map (fun j => Rsum (map (fun k => nth k (nth j (nodal_forces s) []) 0 * nth k (nth j v []) 0) (seq 0 D)) +
      Rsum (map (fun p => if Nat.eqb (fst p) j then snd p * Rsum (map (fun k => nth k t 0 * nth k (nth j v []) 0) (seq 0 D)) else 0) (weights d))) (seq 0 n))).
  - apply Rsum_ext. intros j _.
    rewrite (Rsum_ext _ (fun p : nat * R => if Nat.eqb (fst p) j then _ else 0) (fun p => (if Nat.eqb (fst p) j then snd p else 0) * Rsum (map (fun k => nth k t 0 * nth k (nth j v []) 0) (seq 0 D))))
      by (intros p _; destruct (Nat.eqb (fst p) j); ring).
    rewrite Rsum_scal_r. fold (node_weight d j). rewrite <- Rsum_scal_l, <- Rsum_plus. apply Rsum_ext. intros k _. rewrite N. ring.
  - rewrite Rsum_plus. f_equal. rewrite Rsum_swap.
    set (g := fun j => Rsum (map (fun k => nth k t 0 * nth k (nth j v []) 0) (seq 0 D))).
    transitivity (Rsum (map (fun p => snd p * g (fst p)) (weights d))).
    + apply Rsum_ext. intros p Hp. apply (Rsum_delta (fun j => snd p * g j)). exact (proj1 (Forall_forall _ _) (weights_valid d WF) p Hp).
    + rewrite (weights_integral d g WF). unfold surface_integral. apply Rsum_ext. intros row _. apply Rsum_ext. intros q _. f_equal.
      unfold field_at, interpolate. rewrite map2_combine.
      transitivity (Rsum (map (fun k => nth k t 0 * Rsum (map2 (fun row l => nth k row 0 * l) (map (fun i => nth i v []) row) (L (kind d) (fst q)))) (seq 0 D))).
      * transitivity (Rsum (map (fun k => Rsum (map (fun p => nth k t 0 * (nth k (nth (fst p) v []) 0 * snd p)) (combine row (L (kind d) (fst q))))) (seq 0 D))).
        2:{ apply Rsum_ext. intros k _. rewrite Rsum_scal_l. f_equal. rewrite map2_combine. f_equal. generalize (L (kind d) (fst q)) as ls. clear. induction row as [|i row IH]; intros [|l ls]; simpl; try reflexivity. f_equal. apply IH. }
        rewrite Rsum_swap. apply Rsum_ext. intros p _. unfold g. rewrite <- Rsum_scal_r. apply Rsum_ext. intros k _. ring.
      * rewrite map2_combine. fold D in Ht. clear - Ht. set (h := fun k => Rsum (map2 (fun row l => nth k row 0 * l) (map (fun i => nth i v []) row) (L (kind d) (fst q)))).
        change (Rsum (map (fun k => nth k t 0 * h k) (seq 0 D)) = Rsum (map (fun p => fst p * snd p) (combine t (map h (seq 0 D))))). clearbody h.
        rewrite <- Ht. clear. assert (G : forall t s, Rsum (map (fun k => nth (k - s) t 0 * h k) (seq s (length t))) = Rsum (map (fun p => fst p * snd p) (combine t (map h (seq s (length t)))))).
        { clear t. induction t as [|x t IH]; intros s; [reflexivity|]. cbn [length seq map combine Rsum fold_right fst snd]. rewrite Nat.sub_diag. cbn [nth]. f_equal.
          etransitivity; [|apply (IH (S s))]. unfold Rsum. f_equal. apply map_ext_in. intros k Hk. apply in_seq in Hk. destruct (k - s)%nat as [|m] eqn:Em; [lia|]. replace (k - S s)%nat with m by lia. reflexivity. }
        rewrite <- (G t 0%nat). apply Rsum_ext. intros k _. rewrite Nat.sub_0_r. reflexivity.
Qed.
Print Assumptions C62_virtual_work.

(** The sum of the added nodal forces is the traction times the area. *)
Theorem C62_total : forall c s t, well_formed (surface c) -> length t = dim (surface c) ->
  field (length (positions (surface c))) (dim (surface c)) (nodal_forces s) ->
  exists s', increment_load c s t = Some s' /\
    total (dim (surface c)) (nodal_forces s') =
    vadd (total (dim (surface c)) (nodal_forces s)) (map (fun x => x * area (surface c)) t) /\
    total_load s' = total_load s + norm (map (fun x => x * area (surface c)) t).
Proof.
  intros c s t WF Ht HF. destruct (increment_load_spec c s t WF Ht HF) as (s' & E & F & N & TL & _). exists s'. split; [exact E|]. split; [|exact TL].
  set (d := surface c) in *. set (n := length (positions d)) in *.
  assert (S : forall k (l : list (list R)), length l = n -> Rsum (map (fun v => nth k v 0) l) = Rsum (map (fun i => nth k (nth i l []) 0) (seq 0 n))).
  { clear. intros k l <-. induction l as [|x l IH]; [reflexivity|]. simpl. rewrite IH. rewrite <- seq_shift, map_map. reflexivity. }
  assert (W : Rsum (map (fun j => node_weight d j) (seq 0 n)) = area d).
  { rewrite <- (weights_total d WF). unfold node_weight. rewrite Rsum_swap. apply Rsum_ext. intros p Hp.
    apply (Rsum_delta (fun _ => snd p)). exact (proj1 (Forall_forall _ _) (weights_valid d WF) p Hp). }
  apply (nth_ext _ _ 0 0).
  - unfold total, vadd. rewrite LinAlgProofs.map2_length; rewrite !map_length, seq_length; congruence.
  - intros k Hk. unfold total in Hk. rewrite map_length, seq_length in Hk. unfold total at 1. rewrite (nth_map_seq _ (dim d) 0%nat k) by exact Hk. cbn [Nat.add].
    rewrite (S k _ (proj1 F)).
    assert (A : forall a b : list R, length a = length b -> forall c, nth c (vadd a b) 0 = nth c a 0 + nth c b 0).
    { clear. unfold vadd. induction a as [|p a IH]; intros [|q b] H c; try discriminate.
      - destruct c; simpl; lra.
      - destruct c; simpl; [reflexivity|]. apply IH. simpl in H. congruence. }
    rewrite A by (unfold total; rewrite !map_length, seq_length; congruence). unfold total. rewrite (nth_map_seq _ (dim d) 0%nat k) by exact Hk. cbn [Nat.add].
    rewrite (S k _ (proj1 HF)). rewrite nth_map0 by ring. rewrite <- W, <- Rsum_scal_l, <- Rsum_plus. apply Rsum_ext. intros j _. apply N.
Qed.
Print Assumptions C62_total.

(** The integrated area is the area of the surface: half the norm of the cross product of two sides for each linear
    triangle of a 3D mesh (half the absolute determinant in 2D)... *)
Theorem C62_area_triangles : forall d, kind d = Triangle_Linear -> dim d = 3%nat -> well_formed d ->
  Forall (fun p => length p = 3%nat) (positions d) ->
  area d = Rsum (map (fun row => / 2 * norm (vcross (vminus (nth (nth 1 row 0%nat) (positions d) []) (nth (nth 0 row 0%nat) (positions d) []))
                                                    (vminus (nth (nth 2 row 0%nat) (positions d) []) (nth (nth 0 row 0%nat) (positions d) []))))
                     (connectivity d)).
Proof.
  intros d HK HD WF HP. unfold area, surface_integral. apply Rsum_ext. intros row Hrow.
  destruct (proj1 (Forall_forall _ _) WF row Hrow) as [HL F]. rewrite HK in HL. cbn [NumberOfNodes] in HL.
  destruct row as [|i0 [|i1 [|i2 [|]]]]; try discriminate. cbn [nth].
  assert (P : forall i, (i < length (positions d))%nat -> exists x y z, nth i (positions d) [] = [x; y; z]).
  { intros i Hi. assert (Hl : length (nth i (positions d) []) = 3%nat) by (apply (proj1 (Forall_forall _ _) HP); apply nth_In; exact Hi).
    destruct (nth i (positions d) []) as [|x [|y [|z [|]]]]; try discriminate. exists x, y, z. reflexivity. }
  inversion F as [|? ? H0 F1]; subst. inversion F1 as [|? ? H1 F2]; subst. inversion F2 as [|? ? H2 _]; subst.
  destruct (P i0 H0) as (x0 & y0 & z0 & E0). destruct (P i1 H1) as (x1 & y1 & z1 & E1). destruct (P i2 H2) as (x2 & y2 & z2 & E2).
  unfold area_factor, nodes_of_element. rewrite HK, HD. cbn [Nat.eqb CanonicalDimension andb map]. rewrite E0, E1, E2.
  rewrite (Rsum_ext _ _ (fun g => snd g * norm (vcross [x1 - x0; y1 - y0; z1 - z0] [x2 - x0; y2 - y0; z2 - z0]))).
  - rewrite Rsum_scal_r. rewrite (Rmult_comm (/ 2)), Rmult_comm. f_equal. cbv [gauss_nodes]. cbn [map snd Rsum fold_right]. cbn. lra.
  - intros g _. rewrite Rmult_1_r. f_equal. rewrite Rabs_pos_eq by apply sqrt_pos. f_equal. f_equal; unfold column, jacobian; cbn [map seq CanonicalDimension dL Triangle_Linear_dL map2 nth Rsum fold_right]; unfold Rsum; cbn [fold_right]; (f_equal; [ring|f_equal; [ring|f_equal; ring]]).
Qed.
Print Assumptions C62_area_triangles.

(** ... and the norm of the cross product of two sides for each linear quad that is a parallelogram. *)
Theorem C62_area_parallelograms : forall d, kind d = Quad_Linear -> dim d = 3%nat -> well_formed d ->
  Forall (fun p => length p = 3%nat) (positions d) ->
  Forall (fun row => vadd (nth (nth 0 row 0%nat) (positions d) []) (nth (nth 2 row 0%nat) (positions d) []) =
                     vadd (nth (nth 1 row 0%nat) (positions d) []) (nth (nth 3 row 0%nat) (positions d) [])) (connectivity d) ->
  area d = Rsum (map (fun row => norm (vcross (vminus (nth (nth 1 row 0%nat) (positions d) []) (nth (nth 0 row 0%nat) (positions d) []))
                                              (vminus (nth (nth 3 row 0%nat) (positions d) []) (nth (nth 0 row 0%nat) (positions d) []))))
                     (connectivity d)).
Proof.
  intros d HK HD WF HP HPar. unfold area, surface_integral. apply Rsum_ext. intros row Hrow.
  destruct (proj1 (Forall_forall _ _) WF row Hrow) as [HL F]. apply (proj1 (Forall_forall _ _) HPar) in Hrow. rewrite HK in HL. cbn [NumberOfNodes] in HL.
  destruct row as [|i0 [|i1 [|i2 [|i3 [|]]]]]; try discriminate. cbn [nth] in *.
  assert (P : forall i, (i < length (positions d))%nat -> exists x y z, nth i (positions d) [] = [x; y; z]).
  { intros i Hi. assert (Hl : length (nth i (positions d) []) = 3%nat) by (apply (proj1 (Forall_forall _ _) HP); apply nth_In; exact Hi).
    destruct (nth i (positions d) []) as [|x [|y [|z [|]]]]; try discriminate. exists x, y, z. reflexivity. }
  inversion F as [|? ? H0 F1]; subst. inversion F1 as [|? ? H1 F2]; subst. inversion F2 as [|? ? H2 F3]; subst. inversion F3 as [|? ? H3 _]; subst.
  destruct (P i0 H0) as (x0 & y0 & z0 & E0). destruct (P i1 H1) as (x1 & y1 & z1 & E1). destruct (P i2 H2) as (x2 & y2 & z2 & E2).
  destruct (P i3 H3) as (x3 & y3 & z3 & E3).
  unfold area_factor, nodes_of_element. rewrite HK, HD. cbn [Nat.eqb CanonicalDimension andb map]. rewrite E0, E1, E2, E3 in *.
  cbn [vadd map2] in Hrow. injection Hrow as Hx Hy Hz.
  set (u := [x1 - x0; y1 - y0; z1 - z0]). set (v := [x3 - x0; y3 - y0; z3 - z0]).
  rewrite (Rsum_ext _ _ (fun g => snd g * (/ 4 * norm (vcross u v)))).
  - rewrite Rsum_scal_r. change (vminus [x1; y1; z1] [x0; y0; z0]) with u. change (vminus [x3; y3; z3] [x0; y0; z0]) with v.
    cbv [gauss_nodes]. cbn [map snd Rsum fold_right]. cbn. lra.
  - intros g Hg. rewrite Rmult_1_r. f_equal. rewrite Rabs_pos_eq by apply sqrt_pos.
    replace (vcross (column _ 0) (column _ 1)) with (map (fun x => x * / 4) (vcross u v)).
    { rewrite norm_scale, Rabs_pos_eq by lra. reflexivity. }
    pose proof (gauss_position_length _ _ Hg) as Hl. destruct (fst g) as [|a [|b [|]]]; try discriminate.
    assert (X2 : x2 = x1 + x3 - x0) by lra. assert (Y2 : y2 = y1 + y3 - y0) by lra. assert (Z2 : z2 = z1 + z3 - z0) by lra. subst x2 y2 z2.
    unfold column, jacobian, vcross, u, v. cbn [map seq CanonicalDimension dL Quad_Linear_dL map2 nth Rsum fold_right]. unfold Rsum. cbn [fold_right].
    f_equal; [field|f_equal; [field|f_equal; field]].
Qed.
Print Assumptions C62_area_parallelograms.

(** ** C63 *)

(** The traction applied after a history of events whose slope is at least EPSILON: the prescribed traction times
    min(1, slope * number of increments), with one increment at the first step and one every
    number_of_steps_before_increment steps after it. *)
Theorem C63_history_partial : forall c events, surface_mesh c -> EPSILON <= slope c ->
  exists s, run_events c events = Some s /\
    current_traction s =
      map (fun x => x * Rmin 1 (slope c * INR (increments (steps_before_increment c) (length (filter (fun b => b) events))))) (traction c).
Proof.
  intros c events SM Hs. destruct (run_after c events SM Hs) as (s & E & _ & _ & CT & _). exists s. split; [exact E|exact CT].
Qed.
Print Assumptions C63_history_partial.

(** It is never larger than the prescribed one... *)
Theorem C63_never_larger : forall c events s, surface_mesh c -> EPSILON <= slope c -> run_events c events = Some s ->
  norm (current_traction s) <= norm (traction c).
Proof.
  intros c events s SM Hs H. destruct (C63_history_partial c events SM Hs) as (s' & E & CT). rewrite H in E. injection E as <-.
  rewrite CT, norm_scale. assert (Hs0 : 0 < slope c).
  { apply Rlt_le_trans with EPSILON; [|exact Hs]. unfold EPSILON. apply Rinv_0_lt_compat, IZR_lt. reflexivity. }
  rewrite Rabs_pos_eq by (apply Rmin_glb; [lra|apply Rmult_le_pos; [lra|apply pos_INR]]).
  pose proof (norm_nonneg (traction c)). pose proof (Rmin_l 1 (slope c * INR (increments (steps_before_increment c) (length (filter (fun b => b) events))))). nra.
Qed.
Print Assumptions C63_never_larger.

(** ... it reaches exactly the prescribed one and stays there. *)
Theorem C63_reached : forall c, surface_mesh c -> EPSILON <= slope c ->
  exists k, forall events s, (k <= length (filter (fun b => b) events))%nat -> run_events c events = Some s ->
    current_traction s = traction c.
Proof.
  intros c SM Hs. assert (Hs0 : 0 < slope c).
  { apply Rlt_le_trans with EPSILON; [|exact Hs]. unfold EPSILON. apply Rinv_0_lt_compat, IZR_lt. reflexivity. }
  assert (HA : exists j, / slope c < INR j).
  { exists (Z.to_nat (up (/ slope c))). pose proof (proj1 (archimed (/ slope c))) as A. rewrite INR_IZR_INZ, Z2Nat.id; [lra|].
    apply le_IZR. pose proof (Rinv_0_lt_compat _ Hs0). lra. }
  destruct HA as [j Hj]. set (n := Nat.max 1 (steps_before_increment c)).
  exists (S (j * n))%nat. intros events s Hk H. destruct (C63_history_partial c events SM Hs) as (s' & E & CT). rewrite H in E. injection E as <-.
  rewrite CT. rewrite Rmin_left; [rewrite <- (map_id (traction c)) at 2; apply map_ext; intros x; ring|].
  assert (Hi : (j <= increments (steps_before_increment c) (length (filter (fun b => b) events)))%nat).
  { destruct (length (filter (fun b => b) events)) as [|m]; [lia|]. cbn [increments]. fold n. apply le_S.
    apply Nat.div_le_lower_bound; [unfold n; lia|]. lia. }
  apply le_INR in Hi. apply Rle_trans with (slope c * INR j); [|apply Rmult_le_compat_l; lra].
  apply Rmult_le_reg_l with (/ slope c); [apply Rinv_0_lt_compat; exact Hs0|]. rewrite <- Rmult_assoc, Rinv_l by lra. lra.
Qed.
Print Assumptions C63_reached.

(** At any time the nodal forces are those of one application of the current traction, and total_load is its norm
    times the area. *)
Theorem C63_forces : forall c events s, surface_mesh c -> EPSILON <= slope c -> run_events c events = Some s ->
  exists s0 s1, init c = Some s0 /\ increment_load c s0 (current_traction s) = Some s1 /\
    nodal_forces s = nodal_forces s1 /\ total_load s = norm (current_traction s) * area (surface c).
Proof.
  intros c events s SM Hs H. destruct (run_after c events SM Hs) as (s' & E & _ & LD & CT & _). rewrite H in E. injection E as <-.
  destruct (initial c SM Hs) as (s0 & E0 & _ & LD0 & CT0 & _). set (lambda := Rmin 1 _) in LD, CT.
  cbn [increments INR] in LD0. rewrite Rmult_0_r, Rmin_right in LD0 by lra.
  assert (Hs0 : 0 < slope c).
  { apply Rlt_le_trans with EPSILON; [|exact Hs]. unfold EPSILON. apply Rinv_0_lt_compat, IZR_lt. reflexivity. }
  assert (Hl : 0 <= lambda) by (apply Rmin_glb; [lra|apply Rmult_le_pos; [lra|apply pos_INR]]).
  destruct (increment_loaded c s0 (current_traction s) 0 lambda SM LD0 Hl CT) as (s1 & E1 & (F1 & N1 & T1) & _).
  exists s0, s1. split; [exact E0|]. split; [exact E1|]. destruct LD as (F & N & T). split.
  - apply (nth_ext _ _ [] []); [rewrite (proj1 F), (proj1 F1); reflexivity|]. intros j Hj. rewrite (proj1 F) in Hj.
    assert (L : forall f, field (length (positions (surface c))) (dim (surface c)) f -> length (nth j f []) = dim (surface c)).
    { intros f [Lf Ff]. apply (proj1 (Forall_forall _ _) Ff). apply nth_In. rewrite Lf. exact Hj. }
    apply (nth_ext _ _ 0 0); [rewrite (L _ F), (L _ F1); reflexivity|]. intros k _. rewrite N, N1. rewrite Rplus_0_l. reflexivity.
  - rewrite T, CT, norm_scale, Rabs_pos_eq by exact Hl. ring.
Qed.
Print Assumptions C63_forces.

(** A null slope: the whole traction is applied at init, and no event changes the state. *)
Theorem C63_constant : forall c events, surface_mesh c -> - EPSILON < slope c < EPSILON ->
  exists s, init c = Some s /\ run_events c events = Some s /\
    (forall v, field (length (positions (surface c))) (dim (surface c)) v -> power (nodal_forces s) v =
       surface_integral (surface c) (fun row xi => Rsum (map2 Rmult (traction c) (field_at (surface c) (dim (surface c)) v row xi)))) /\
    total (dim (surface c)) (nodal_forces s) = map (fun x => x * area (surface c)) (traction c).
Proof.
  intros c events (WF & Ht & HC) [Hs1 Hs2]. unfold run_events.
  assert (I : init c = increment_load c {| nodal_forces := repeat (repeat 0 (dim (surface c))) (length (positions (surface c)));
              total_load := 0; is_constant := true; current_traction := repeat 0 (dim (surface c));
              steps_since_last_increment := steps_before_increment c |} (traction c)).
  { unfold init. rewrite !Rlt_bool_true by assumption. reflexivity. }
  set (s0 := {| nodal_forces := _ |}) in I.
  assert (F0 : field (length (positions (surface c))) (dim (surface c)) (nodal_forces s0)).
  { split; [apply repeat_length|]. apply Forall_forall. intros r Hr. apply repeat_spec in Hr. subst r. apply repeat_length. }
  assert (Z : forall n k, nth k (repeat 0 n) 0 = 0). { clear. induction n; intros [|k]; simpl; auto. }
  assert (Z2 : forall n D j, nth j (repeat (repeat 0 D) n) [] = repeat 0 D \/ nth j (repeat (repeat 0 D) n) [] = []).
  { clear. induction n; intros D [|j]; simpl; auto. }
  destruct (increment_load_spec c s0 (traction c) WF Ht F0) as (s & E & F & N & _ & IC & _).
  destruct (C62_total c s0 (traction c) WF Ht F0) as (s' & E' & TT & _). rewrite E in E'. injection E' as <-.
  exists s. rewrite I, E. split; [reflexivity|]. split; [|split].
  - induction events as [|e events IH]; [reflexivity|]. cbn [fold_left]. unfold handleEvent at 2. rewrite IC. cbn [s0 is_constant]. destruct e; exact IH.
  - intros v Hv. destruct (C62_virtual_work c s0 (traction c) WF Ht F0) as (s' & E' & _ & P). rewrite E in E'. injection E' as <-.
    rewrite (P v Hv), (power_alt _ _ _ v F0 Hv). rewrite Rsum_zero; [ring|]. intros j _. apply Rsum_zero. intros k _. cbn [s0 nodal_forces].
    destruct (Z2 (length (positions (surface c))) (dim (surface c)) j) as [-> | ->]; [rewrite Z; ring|destruct k; simpl; ring].
  - rewrite TT.     assert (T0 : total (dim (surface c)) (nodal_forces s0) = repeat 0 (length (map (fun x => x * area (surface c)) (traction c)))).
    { rewrite map_length, Ht. unfold total. cbn [s0 nodal_forces]. apply (nth_ext _ _ 0 0); [rewrite map_length, seq_length, repeat_length; reflexivity|].
      intros k Hk. rewrite map_length, seq_length in Hk. rewrite (nth_map_seq _ _ 0%nat k) by exact Hk. rewrite Z. apply Rsum_zero.
      intros v Hv. apply repeat_spec in Hv. subst v. apply Z. }
    rewrite T0. unfold vadd. clear. induction (map (fun x => x * area (surface c)) (traction c)) as [|x l IH]; [reflexivity|]. simpl. rewrite IH. f_equal. ring.
Qed.
Print Assumptions C63_constant.

(** ** Finding: the state after reset is not usable *)

(** [addForce] adds these nodal forces to the ones it is given. *)
Theorem C63_added : forall c s f, field (length (positions (surface c))) (dim (surface c)) (nodal_forces s) ->
  field (length (positions (surface c))) (dim (surface c)) f ->
  exists f', addForce s f = Some f' /\ field (length (positions (surface c))) (dim (surface c)) f' /\
    forall v, field (length (positions (surface c))) (dim (surface c)) v ->
      power f' v = power f v + power (nodal_forces s) v.
Proof.
  intros c s f. generalize (length (positions (surface c))) as n, (dim (surface c)) as D. intros n D [LN FN] [LF FF].
  assert (A : forall g f, length g = length f -> Forall (fun r => length r = D) g -> Forall (fun r => length r = D) f ->
    exists f', add_vectors f g = Some f' /\ length f' = length f /\ Forall (fun r => length r = D) f' /\
      forall i, (i < length f)%nat -> nth i f' [] = vadd (nth i f []) (nth i g [])).
  { clear. induction g as [|y g IH]; intros [|x f] L Fg Ff; try discriminate.
    - exists []. repeat split; auto. intros i Hi. simpl in Hi. lia.
    - injection L as L. inversion_clear Fg as [|? ? Hy Fg']. inversion_clear Ff as [|? ? Hx Ff'].
      destruct (IH f L Fg' Ff') as (f' & E & L' & F' & N). exists (vadd x y :: f'). cbn [add_vectors]. rewrite E. repeat split.
      + simpl. congruence.
      + constructor; [|exact F']. unfold vadd. rewrite LinAlgProofs.map2_length by congruence. exact Hx.
      + intros [|i] Hi; [reflexivity|]. apply N. simpl in Hi. lia. }
  destruct (A (nodal_forces s) f) as (f' & E & L' & F' & N); [congruence|assumption|assumption|].
  assert (FF' : field n D f') by (split; [congruence|exact F']).
  exists f'. split; [exact E|]. split; [exact FF'|]. intros v Hv.
  rewrite (power_alt n D f' v FF' Hv), (power_alt n D f v (conj LF FF) Hv), (power_alt n D _ v (conj LN FN) Hv).
  rewrite <- Rsum_plus. apply Rsum_ext. intros i Hi. apply in_seq in Hi. rewrite <- Rsum_plus. apply Rsum_ext. intros k Hk. apply in_seq in Hk.
  rewrite N by lia.
  assert (Lx : length (nth i f []) = D) by (apply (proj1 (Forall_forall _ _) FF), nth_In; lia).
  assert (Ly : length (nth i (nodal_forces s) []) = D) by (apply (proj1 (Forall_forall _ _) FN), nth_In; lia).
  assert (V : forall a b, length a = length b -> nth k (vadd a b) 0 = nth k a 0 + nth k b 0).
  { clear. unfold vadd. intros a. revert k. induction a as [|x a IH]; intros [|k] [|y b] L; try discriminate; simpl; try ring. apply IH. injection L as L. exact L. }
  rewrite V by lia. ring.
Qed.
Print Assumptions C63_added.

(** The force vector is emptied, so that the next force computation reads out of it, whatever the mesh and the history. *)
Theorem C63_reset_force_refuted : forall c s x f, addForce (reset c s) (x :: f) = None.
Proof. reflexivity. Qed.
Print Assumptions C63_reset_force_refuted.

(** The next step of an incremental load writes out of it. *)
Theorem C63_reset_step_refuted : forall c s, surface_mesh c -> connectivity (surface c) <> [] -> is_constant s = false ->
  0 < norm (traction c) -> handleEvent c (reset c s) true = None.
Proof.
  intros c s (WF & Ht & HC) HN IC HT. unfold handleEvent. cbn [negb reset is_constant current_traction steps_since_last_increment]. rewrite IC.
  assert (N0 : norm (repeat 0 (dim (surface c))) = 0).
  { unfold norm, squaredNorm, vdot. replace (Rsum _) with 0; [apply sqrt_0|]. generalize (dim (surface c)) as n. induction n; simpl; [reflexivity|]. unfold Rsum in *. simpl. rewrite <- IHn. ring. }
  rewrite Rle_bool_false by (rewrite N0; exact HT). rewrite (proj2 (Nat.ltb_ge _ _)) by lia.
  unfold increment_load. cbn [nodal_forces]. unfold contributions.
  destruct (connectivity (surface c)) as [|row rows] eqn:EC; [congruence|]. cbn [flat_map].
  assert (Hrow : length row = NumberOfNodes (kind (surface c))) by (unfold well_formed in WF; rewrite EC in WF; inversion WF as [|? ? [A _] _]; exact A).
  assert (Z : forall l, fold_left (fun (f : option (list (list R))) (p : nat * list R) => match f with Some f => add_at f (fst p) (snd p) | None => None end) l None = None).
  { clear. induction l; [reflexivity|exact IHl]. }
  destruct row as [|i row]; [pose proof (BarycentricProofs.nodes_positive (kind (surface c))); simpl in Hrow; lia|].
  set (rest := flat_map _ rows). clearbody rest. unfold gauss_nodes_of.
  assert (G : exists g gs, gauss_nodes (kind (surface c)) = g :: gs) by (destruct (kind (surface c)); eexists; eexists; reflexivity).
  destruct G as (g & gs & ->). cbn [map flat_map].
  assert (HL : exists l ls, L (kind (surface c)) (fst g) = l :: ls).
  { pose proof (length_L (kind (surface c)) (fst g)) as HLL. destruct (L (kind (surface c)) (fst g)); [|eexists; eexists; reflexivity].
    pose proof (BarycentricProofs.nodes_positive (kind (surface c))). simpl in HLL. lia. }
  destruct HL as (l & ls & ->). cbn [map2 app]. unfold add_all. cbn [fold_left add_at]. rewrite Z. reflexivity.
Qed.
Print Assumptions C63_reset_step_refuted.

(** A constant traction is not applied again. *)
Theorem C63_reset_constant_refuted : forall c s events, is_constant s = true ->
  fold_left (fun s e => match s with Some s => handleEvent c s e | None => None end) events (Some (reset c s)) = Some (reset c s).
Proof.
  intros c s events IC. induction events as [|e events IH]; [reflexivity|]. cbn [fold_left]. unfold handleEvent at 2. cbn [reset is_constant]. rewrite IC.
  destruct e; exact IH.
Qed.
Print Assumptions C63_reset_constant_refuted.

(** A surface of two triangles loaded by steps of a third every two steps: 1/3, 1/3, 2/3, 2/3, 1, 1, ... *)
Definition two_triangles : config :=
  {| surface := {| dim := 3; kind := Triangle_Linear; positions := [[0; 0; 0]; [1; 0; 0]; [1; 1; 0]; [0; 1; 0]];
                   connectivity := [[0%nat; 1%nat; 2%nat]; [0%nat; 2%nat; 3%nat]] |};
     traction := [0; 0; 6]; slope := 1 / 3; steps_before_increment := 2 |}.
Example C63_witness : surface_mesh two_triangles /\ EPSILON <= slope two_triangles /\ area (surface two_triangles) = 1 /\
  0 < norm (traction two_triangles) /\
  map (fun k => increments 2 k) [0; 1; 2; 3; 4; 5; 6; 7]%nat = [0; 1; 1; 2; 2; 3; 3; 4]%nat.
Proof.
  assert (W : well_formed (surface two_triangles)) by (repeat constructor).
  assert (S : sqrt 1 = 1) by apply sqrt_1.
  split; [repeat split; exact W|]. split; [unfold EPSILON; cbn [slope two_triangles]; replace (/ IZR (10 ^ 19)) with (1 / IZR (10 ^ 19)) by (unfold Rdiv; ring);
    apply Rmult_le_compat_l; [lra|]; apply Rinv_le_contravar; [lra|]; apply IZR_le; vm_compute; discriminate|].
  split; [|split; [|reflexivity]].
  - rewrite C62_area_triangles; [|reflexivity|reflexivity|exact W|repeat constructor]. cbn [surface two_triangles connectivity positions map nth].
    unfold norm, squaredNorm, vdot, vcross, vminus. cbn [map2 nth]. unfold Rsum. cbn [fold_right].
    match goal with |- / 2 * sqrt ?a + (/ 2 * sqrt ?b + 0) = 1 => replace a with 1 by ring; replace b with 1 by ring end. rewrite S. lra.
  - unfold norm, squaredNorm, vdot. cbn [two_triangles traction map2]. unfold Rsum. cbn [fold_right]. apply sqrt_lt_R0. lra.
Qed.
