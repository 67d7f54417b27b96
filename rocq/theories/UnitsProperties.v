(** C108: the results do not depend on the units. *)

From Coq Require Import ZArith Reals Lra Lia.
From Coquelicot Require Import Coquelicot.
From Coq Require Import List Arith Bool.
From Verif Require Import GridGeoModel ShapeModel ShapeSpec LinAlg LinAlgProofs BarycentricModel MappingSpec MappingProofs TensorModel TensorSpec
  MaterialModel MaterialSpec MaterialProofs SparseModel SparseProofs Sums TractionModel TractionSpec TractionProofs HyperModel HyperSpec HyperProofs HyperProofs2 HyperProofs4 HyperProperties
  EnergySpec EnergyProofs PatchSpec PatchProofs PatchProofs2 PatchProofs3 PatchProofs4 PatchProofs5 PatchProperties LoadSpec LoadProofs LoadProofs2 LoadProperties RemeshSpec RemeshProofs RemeshProofs2 RemeshProperties
  ShapeProofs NewtonLocalProofs RectModel RectProperties RectSpec RectProofs IntersectModel IntersectSpec IntersectSegmentProofs IntersectHexaProperties UnitsSpec UnitsProofs UnitsProofs2.
Import ListNotations.
Open Scope R_scope.
Notation scaled := UnitsSpec.scaled.

(** Young's modulus in another unit of pressure: the material in this unit. *)
Theorem C108_moduli : forall law E nu b, before_update law (b * E) nu = in_pressure_unit b (before_update law E nu).
Proof. intros law E nu b. unfold before_update, in_pressure_unit. cbn [kind_of mu lambda]. f_equal; unfold Rdiv; ring. Qed.
Print Assumptions C108_moduli.

(** Lengths times a, pressures times b: forces times b a^2. *)
Theorem C108_forces : forall a b m d x f, let N := length (positions d) in
  0 < a -> solid d -> regular d -> field N 3 x -> field N 3 f ->
  HyperModel.addForce (in_pressure_unit b m) (in_length_unit a d) (scaled a x) (scaled (b * (a * a)) f) = option_map (scaled (b * (a * a))) (HyperModel.addForce m d x f).
Proof. intros a b m d x f N Ha Sd RG Fx Ff. apply (unit_addForce a b m d N); auto. Qed.
Print Assumptions C108_forces.

(** Energies times b a^3. *)
Theorem C108_energy : forall a b m d x, 0 < a -> solid d -> regular d -> field (length (positions d)) 3 x ->
  getPotentialEnergy (in_pressure_unit b m) (in_length_unit a d) (scaled a x) = b * (a * a * a) * getPotentialEnergy m d x.
Proof. intros a b m d x Ha Sd RG Fx. apply (unit_energy a b m d (length (positions d))); auto. Qed.
Print Assumptions C108_energy.

(** The increments of the forces for the assembled matrix. *)
Theorem C108_increments : forall a b m d x k v df, let N := length (positions d) in
  0 < a -> solid d -> regular d -> distinct_nodes d -> field N 3 x -> field N 3 v -> field N 3 df ->
  exists df', field N 3 df' /\
    HyperModel.addDForce (assemble_stiffness m d x) (N * 3) k (concat v) (concat df) = Some (concat df') /\
    HyperModel.addDForce (assemble_stiffness (in_pressure_unit b m) (in_length_unit a d) (scaled a x)) (N * 3) k (concat (scaled a v)) (concat (scaled (b * (a * a)) df)) =
      Some (concat (scaled (b * (a * a)) df')).
Proof. intros a b m d x k v df N Ha Sd RG ND Fx Fv Fd. apply (unit_increments a b m d N); auto. Qed.
Print Assumptions C108_increments.

(** Loads, after any sequence of events. *)
Theorem C108_loads : forall a b c events, 0 < a -> 0 < b -> surface_mesh c -> dim (surface c) = 3%nat ->
  run_events (load_in_units a b c) events = option_map (state_in_units a b) (run_events c events).
Proof. intros a b c events Ha Hb Sc D3. apply run_scaled; assumption. Qed.
Print Assumptions C108_loads.

(** A body and its loads. *)
Theorem C108_scene : forall a b m d (loads : list (config * list bool)) states x f, let N := length (positions d) in
  0 < a -> 0 < b -> solid d -> regular d -> field N 3 x -> field N 3 f ->
  Forall2 (fun l s => surface_mesh (fst l) /\ dim (surface (fst l)) = 3%nat /\ run_events (fst l) (snd l) = Some s) loads states ->
  exists states', Forall2 (fun l s => run_events (load_in_units a b (fst l)) (snd l) = Some s) loads states' /\
    add_loads states' (HyperModel.addForce (in_pressure_unit b m) (in_length_unit a d) (scaled a x) (scaled (b * (a * a)) f)) =
    option_map (scaled (b * (a * a))) (add_loads states (HyperModel.addForce m d x f)).
Proof.
  intros a b m d loads states x f N Ha Hb Sd RG Fx Ff FL. rewrite C108_forces by assumption. generalize (HyperModel.addForce m d x f). clear f Ff. revert states FL.
  induction loads as [|l loads IH]; intros states FL f; inversion FL as [|? s ? states0 [Sc [D3 RE] ] FL0]; subst.
  - exists []. split; constructor.
  - destruct (IH states0 FL0 (match f with Some f => TractionModel.addForce s f | None => None end)) as (states' & F' & E). exists (state_in_units a b s :: states'). split.
    + constructor; [|exact F']. rewrite C108_loads, RE by assumption. reflexivity.
    + unfold add_loads in *. cbn [fold_left]. rewrite <- E. f_equal. destruct f as [f|]; [|reflexivity]. cbn [option_map]. apply push_scaled.
Qed.
Print Assumptions C108_scene.

(** Not so for the intersection tests: the search for the local coordinates stops at an absolute distance. *)
Theorem C108_intersections_refuted : ~ unit_free (fun nodes p q => Hexahedron_intersects_segment Hexahedron_Linear nodes p q 0).
Proof.
  intros H. specialize (H 1e7 tiny [6e-7; 0; 0] [1; 0; 0] ltac:(lra)). cbv beta in H.
  assert (T : Hexahedron_intersects_segment Hexahedron_Linear tiny [6e-7; 0; 0] [1; 0; 0] 0 = true).
  { apply C87_end_inside; [left; reflexivity|lra|]. left. rewrite near_centre; [exact centre_in_cube|left; reflexivity|]. unfold squared_distance. rewrite tiny_world. cbn -[Rminus]. lra. }
  rewrite T in H. assert (W : forall u v w, world_coordinates 3 Hexahedron_Linear (scaled 1e7 tiny) [u; v; w] = [u; v; w]).
  { intros u v w. unfold world_coordinates, interpolate, tiny, scaled. unfold_shape. vec_unfold. repeat (apply (f_equal2 (@cons R)); [field|]). reflexivity. }
  apply (C87_parallelepiped_segment_partial Hexahedron_Linear (scaled 1e7 tiny) [0; 0; 0] [[1; 0; 0]; [0; 1; 0]; [0; 0; 1]]) in H.
  - destruct H as (x & (t & Ht & ->) & xi & C & EQ). apply cube3 in C. destruct C as (u & v & w & -> & Hu & Hv & Hw). cbn [vscale map] in EQ. unfold vscale in EQ. cbn [map] in EQ. rewrite W in EQ. cbn in EQ. injection EQ as E0 E1 E2. lra.
  - left; reflexivity.
  - split; [reflexivity|repeat constructor].
  - split; [split; [reflexivity|repeat constructor]|]. split; [reflexivity|]. intros xi L. apply len3 in L. destruct L as (u & v & w & ->). rewrite W. vec_unfold. repeat (apply (f_equal2 (@cons R)); [ring|]). reflexivity.
  - unfold independent, det, gram, column. cbn. lra.
  - reflexivity.
  - reflexivity.
  - left. unfold squared_distance. cbn [vscale map]. rewrite W. cbn -[Rminus]. lra.
  - left. unfold squared_distance. cbn [vscale map]. rewrite W. cbn -[Rminus]. lra.
Qed.
Print Assumptions C108_intersections_refuted.

(** A tetrahedron of 2/3 m^3 with moduli in Pa, stretched to twice its length: 3/2 J; in mm and MPa: 1500 N mm. *)
Example C108_millimetres :
  getPotentialEnergy steel lone (placed [0; 0; 0] stretch (positions lone)) = 3 / 2 /\
  getPotentialEnergy (in_pressure_unit 1e-6 steel) (in_length_unit 1000 lone) (scaled 1000 (placed [0; 0; 0] stretch (positions lone))) = 1500.
Proof.
  assert (RG : regular lone) by (eapply numbered_regular; exact lone_numbered).
  assert (E : getPotentialEnergy steel lone (placed [0; 0; 0] stretch (positions lone)) = 3 / 2).
  { rewrite C107_energy by (first [exact lone_solid|exact RG|reflexivity|split; [reflexivity|repeat constructor]]). rewrite (proj1 C107_lone_volume). cbv -[Rplus Rmult Rminus Ropp Rdiv Rinv IZR ln]. field. }
  split; [exact E|]. rewrite C108_energy, E; [lra|lra|exact lone_solid|exact RG|]. split; [reflexivity|repeat constructor].
Qed.
(** A bar pulled on both sides meets the hypotheses of the scene. *)
Example C108_bar : exists s1 s2, solid bar /\ regular bar /\ distinct_nodes bar /\
  Forall2 (fun l s => surface_mesh (fst l) /\ dim (surface (fst l)) = 3%nat /\ run_events (fst l) (snd l) = Some s) [(pull_left, [true]); (pull_right, [true; false; true])] [s1; s2].
Proof.
  assert (S1 : surface_mesh pull_left) by (split; [repeat constructor; cbn; lia|split; reflexivity]).
  assert (S2 : surface_mesh pull_right) by (split; [repeat constructor; cbn; lia|split; reflexivity]).
  assert (EP : 0 < EPSILON < 1/2).
  { unfold EPSILON. split; [apply Rinv_0_lt_compat, IZR_lt; reflexivity|]. apply (Rmult_lt_reg_r (IZR (10 ^ 19))); [apply IZR_lt; reflexivity|]. rewrite Rinv_l by (apply not_0_IZR; discriminate). assert (IZR (10 ^ 19) > 2) by (apply IZR_lt; reflexivity). lra. }
  destruct (TractionProperties.C63_constant pull_left [true] S1) as (st1 & _ & R1 & _); [cbn [TractionModel.slope pull_left]; lra|].
  destruct (run_after pull_right [true; false; true] S2) as (st2 & R2 & _); [cbn [TractionModel.slope pull_right]; lra|].
  exists st1, st2. split; [exact bar_solid|]. split; [eapply numbered_regular; exact bar_numbered|]. split.
  - unfold distinct_nodes. repeat constructor; cbn; intuition discriminate.
  - constructor; [split; [exact S1|split; [reflexivity|exact R1] ]|]. constructor; [split; [exact S2|split; [reflexivity|exact R2] ]|constructor].
Qed.
