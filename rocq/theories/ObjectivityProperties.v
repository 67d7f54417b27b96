(** C102: the elastic forces turn with the body. *)

From Coq Require Import ZArith Reals Lra Lia.
From Coquelicot Require Import Coquelicot.
From Coq Require Import List Arith Bool.
From Flocq Require Import Core.Raux.
From Verif Require Import GridGeoModel ShapeModel ShapeSpec ShapeProofs ShapeFieldProofs ShapeGaussProofs LinAlg LinAlgProofs RectModel RectProofs BarycentricModel MappingSpec MappingProofs TensorModel TensorSpec
  MaterialModel MaterialSpec MaterialProofs MaterialProperties SparseModel SparseProofs Sums TractionModel TractionProofs HyperModel HyperSpec HyperProofs HyperProofs2 HyperProofs3 HyperProofs4 HyperProperties EnergyProofs.
From Verif Require Import ObjectivitySpec ObjectivityProofs ObjectivityProofs2 ObjectivityProofs3.
From Verif Require Import CorotModel CorotSpec CorotProofs CorotProofs2 CorotProofs3 CorotProofs4 CorotProperties CorotProperties2.
From Verif Require PatchProofs3.
Import ListNotations.
Open Scope R_scope.

(** ** Hyperelastic force fields *)

(** Both materials, every element type, any positions: moving the body rigidly turns the forces, and the energy stays. *)
Theorem C102_hyperelastic_forces :
  forall m d Q t x f, let N := length (positions d) in
    solid d -> rotation Q -> length t = 3%nat -> field N 3 x -> field N 3 f ->
    HyperModel.addForce m d (rigid Q t x) (turned Q f) = option_map (turned Q) (HyperModel.addForce m d x f).
Proof. intros m d Q t x f N Sd HQ Lt Fx Ff. apply (hyper_forces m d Q t x N); first [assumption | reflexivity]. Qed.
Print Assumptions C102_hyperelastic_forces.

Theorem C102_hyperelastic_energy :
  forall m d Q t x, let N := length (positions d) in
    solid d -> regular d -> rotation Q -> length t = 3%nat -> field N 3 x ->
    getPotentialEnergy m d (rigid Q t x) = getPotentialEnergy m d x.
Proof. intros m d Q t x N Sd RG HQ Lt Fx. apply (hyper_energy m d Q t x N); first [assumption | reflexivity]. Qed.
Print Assumptions C102_hyperelastic_energy.

(** Force increments: the increment of the moved body for the turned displacement is the turned increment. *)
Theorem C102_hyperelastic_increments :
  forall m d Q t x k v df, let N := length (positions d) in
    solid d -> distinct_nodes d -> rotation Q -> length t = 3%nat -> field N 3 x -> field N 3 v -> field N 3 df ->
    exists df', field N 3 df' /\
      HyperModel.addDForce (assemble_stiffness m d x) (N * 3) k (concat v) (concat df) = Some (concat df') /\
      HyperModel.addDForce (assemble_stiffness m d (rigid Q t x)) (N * 3) k (concat (turned Q v)) (concat (turned Q df)) = Some (concat (turned Q df')).
Proof. intros m d Q t x k v df N Sd ND HQ Lt Fx Fv Fd. apply (hyper_increments m d Q t x N); first [assumption | reflexivity]. Qed.
Print Assumptions C102_hyperelastic_increments.

(** The rest shape may be given in any frame... *)
Theorem C102_hyperelastic_rest_frame :
  forall m d Q t x f, let N := length (positions d) in
    solid d -> regular d -> rotation Q -> length t = 3%nat -> field N 3 x -> field N 3 f ->
    HyperModel.addForce m (moved d (rigid Q t (positions d))) x f = HyperModel.addForce m d x f.
Proof. intros m d Q t x f N Sd RG HQ Lt Fx Ff. apply (rest_forces m d Q t x N); first [assumption | reflexivity]. Qed.
Print Assumptions C102_hyperelastic_rest_frame.

(** ... and so may the whole scene. *)
Theorem C102_hyperelastic_scene :
  forall m d Q t x f, let N := length (positions d) in
    solid d -> regular d -> rotation Q -> length t = 3%nat -> field N 3 x -> field N 3 f ->
    HyperModel.addForce m (moved d (rigid Q t (positions d))) (rigid Q t x) (turned Q f) = option_map (turned Q) (HyperModel.addForce m d x f).
Proof. intros m d Q t x f N Sd RG HQ Lt Fx Ff. apply (scene_forces m d Q t x f N); first [assumption | reflexivity]. Qed.
Print Assumptions C102_hyperelastic_scene.

(** ** Corotational force fields *)

Lemma history m c E nu calls : valid_mesh m -> Forall (keeps_corotated c) calls ->
  reached m (after m (fresh c E nu) calls) /\ corotated (after m (fresh c E nu) calls) = c.
Proof.
  intros VM K. split; [apply after_reached; [exact VM|apply fresh_reached]|].
  assert (H : forall calls s, Forall (keeps_corotated c) calls -> corotated s = c -> corotated (after m s calls) = c).
  { clear calls K. induction calls as [|a calls IH]; intros s K Hs; [exact Hs|]. apply Forall_cons_iff in K. destruct K as [Ka K]. apply IH; [exact K|].
    destruct a as [c' E' nu'| |x f|k dx df|k off|]; cbn [step keeps_corotated] in *; try exact Hs.
    - exact Ka.
    - unfold reinit. cbv zeta. destruct (negb _); [destruct (type m); exact Hs|exact Hs].
    - unfold addForce. destruct (negb _); exact Hs.
    - unfold CorotModel.K. destruct (K_is_up_to_date s); exact Hs. }
  apply H; [exact K|reflexivity].
Qed.

(** With the option on, after any calls. *)
Theorem C102_corotational_forces :
  forall m E nu calls Q t x f, let N := length (x0 m) in let s := after m (fresh true E nu) calls in
    valid_mesh m -> Forall (keeps_corotated true) calls -> rotation Q -> length t = 3%nat -> field N 3 x -> field N 3 f ->
    snd (addForce m s (rigid Q t x) (turned Q f)) = option_map (turned Q) (snd (addForce m s x f)).
Proof. intros m E nu calls Q t x f N s VM K HQ Lt Fx Ff. destruct (history m true E nu calls VM K) as [RE C]. apply corot_forces; assumption. Qed.
Print Assumptions C102_corotational_forces.

(** The increments computed after the forces, whatever the force vectors were. *)
Theorem C102_corotational_increments :
  forall m E nu calls Q t x f g k v df, let N := length (x0 m) in let s := after m (fresh true E nu) calls in
    valid_mesh m -> Forall (keeps_corotated true) calls -> rotation Q -> length t = 3%nat -> field N 3 x -> field N 3 v -> field N 3 df ->
    addDForce m (after m s [AddForce (rigid Q t x) f]) k (turned Q v) (turned Q df) = option_map (turned Q) (addDForce m (after m s [AddForce x g]) k v df).
Proof.
  intros m E nu calls Q t x f g k v df N s VM K HQ Lt Fx Fv Fd. destruct (history m true E nu calls VM K) as [RE C].
  cbn [after fold_left step]. apply corot_increments; assumption.
Qed.
Print Assumptions C102_corotational_increments.

(** With the option off, only translations are not felt. *)
Theorem C102_translation_partial :
  forall m E nu calls t x f, let N := length (x0 m) in let s := after m (fresh false E nu) calls in
    valid_mesh m -> Forall (keeps_corotated false) calls -> length t = 3%nat -> field N 3 x -> field N 3 f ->
    snd (addForce m s (rigid Id3 t x) f) = snd (addForce m s x f).
Proof. intros m E nu calls t x f N s VM K Lt Fx Ff. destruct (history m false E nu calls VM K) as [RE C]. apply translated_forces; assumption. Qed.
Print Assumptions C102_translation_partial.

(** A rotation with a vanishing linear strain is the identity. *)
Lemma unstrained Q : rotation Q -> entries Q 0 0 = 1 -> entries Q 1 1 = 1 -> entries Q 2 2 = 1 -> Q = Id3.
Proof.
  intros HQ D0 D1 D2. destruct (rotation_entries Q HQ) as (a & b & c & d & e & f & g & h & i & -> & A0 & A1 & A2 & _). unfold entries in *. cbn [nth] in *. subst a e i.
  assert (Z : forall u v, u * u + v * v = 0 -> u = 0 /\ v = 0) by (intros u v H; split; nra).
  destruct (Z d g ltac:(lra)) as [-> ->]. destruct (Z b h ltac:(lra)) as [-> ->]. destruct (Z c f ltac:(lra)) as [-> ->]. reflexivity.
Qed.
Lemma trace_below Q i : rotation Q -> (i < 3)%nat -> entries Q i i <= 1.
Proof.
  intros HQ Hi. destruct (rotation_entries Q HQ) as (a & b & c & d & e & f & g & h & j & -> & A0 & A1 & A2 & _). unfold entries.
  destruct i as [|[|[|] ] ]; try lia; cbn [nth]; nra.
Qed.

(** With the option off, no rotation of the rest positions goes unnoticed: forces appear whatever the rotation, on any body
    of positively oriented elements and for every admissible material. *)
Theorem C102_without_option_refuted :
  forall m E nu calls Q t f, let N := length (x0 m) in let s := after m (fresh false E nu) (Reinit :: calls) in
    valid_mesh m -> Forall (fun row => Forall (fun g => 0 < det (jacobian 3 (kind_of_elements (type m)) (gather (x0 m) row) (fst g))) (integration_points (type m))) (elements m) ->
    0 < E -> -1 < nu < / 2 -> Forall evaluation calls -> rotation Q -> Q <> Id3 -> length t = 3%nat -> field N 3 f ->
    snd (addForce m s (x0 m) f) = Some f /\
    snd (addForce m s (rigid Q t (x0 m)) (turned Q f)) <> Some (turned Q f).
Proof.
  intros m E nu calls Q t f N s VM OR PE Pnu FC HQ NQ Lt Ff. assert (FX : field N 3 (x0 m)) by apply VM. pose proof (proj1 HQ) as MQ.
  assert (FY : field N 3 (rigid Q t (x0 m))) by (apply CorotProofs3.rigid_field; assumption).
  assert (Ftf : field N 3 (turned Q f)) by (apply turned_field; [exact MQ|apply Ff]).
  destruct (C70_without_corotation m E nu calls (x0 m) f VM FC FX Ff) as (f1 & R1 & F1 & W1).
  destruct (C70_without_corotation m E nu calls (rigid Q t (x0 m)) (turned Q f) VM FC FY Ftf) as (f2 & R2 & F2 & W2).
  fold s in R1, R2. rewrite R1, R2. split.
  - f_equal. apply (CorotProofs3.fields_equal N); [exact F1|exact Ff|]. intros p c Hc. destruct (Nat.lt_ge_cases p N) as [Hp|Hp].
    + rewrite <- (PatchProofs3.power_unit m N f1 p c), <- (PatchProofs3.power_unit m N f p c) by assumption. rewrite W1 by apply PatchProofs3.unit_field_field.
      assert (Z : linear_elastic_work m E nu (displacement m (x0 m)) (PatchProofs3.unit_field N p c) = 0); [|rewrite Z; ring].
      unfold linear_elastic_work. cbv zeta. apply Rsum_zero. intros row Hr. apply Rsum_zero. intros g Hg.
      assert (A : forall i l, (i < 3)%nat -> (l < 3)%nat -> entries (field_gradient (type m) (x0 m) (displacement m (x0 m)) row (fst g)) i l = 0).
      { intros i l Hi Hl. apply (PatchProofs3.affine_gradient m VM (fun _ => 0) (fun _ _ => 0) _ row g Hr Hg); [|exact Hi|exact Hl].
        intros q k Hq Hk. rewrite (proj2 (displacement_field m (x0 m) FX FX)) by assumption. unfold sum3. ring. }
      unfold tr, double_dot, small_strain, sum3. rewrite !entries_of_entries by lia. rewrite !A by lia. ring.
    + unfold entries. rewrite (nth_overflow f1) by (rewrite (proj1 F1); exact Hp). rewrite (nth_overflow f) by (rewrite (proj1 Ff); exact Hp). reflexivity.
  - intros [= C]. subst f2. destruct (displacement_field m (rigid Q t (x0 m)) FY FX) as [FU EU]. set (u := displacement m (rigid Q t (x0 m))) in *.
    specialize (W2 u FU). assert (W : 0 < linear_elastic_work m E nu u u); [|lra]. clear W2 R1 R2 W1.
    set (A := fun i j => entries Q i j - delta i j).
    assert (GA : forall row g, In row (elements m) -> In g (integration_points (type m)) -> forall i l, (i < 3)%nat -> (l < 3)%nat -> entries (field_gradient (type m) (x0 m) u row (fst g)) i l = A i l).
    { intros row g Hr Hg i l Hi Hl. apply (PatchProofs3.affine_gradient m VM (fun c => nth c t 0) A _ row g Hr Hg); [|exact Hi|exact Hl].
      intros p c Hp Hc. rewrite EU by assumption. rewrite (rigid_entries N) by assumption. unfold A, sum3, delta. destruct c as [|[|[|] ] ]; try lia; cbn [Nat.eqb]; ring. }
    set (l := E * nu / ((1 + nu) * (1 - 2 * nu))). set (mu := E / (2 * (1 + nu))).
    set (T := A 0%nat 0%nat + A 1%nat 1%nat + A 2%nat 2%nat). set (D := sum3 (fun i => sum3 (fun j => (/ 2 * (A i j + A j i)) * (/ 2 * (A i j + A j i))))).
    assert (PD : 0 < l * T * T + 2 * mu * D).
    { assert (P1 : 0 < 1 + nu) by lra. assert (P2 : 0 < 1 - 2 * nu) by lra.
      assert (Pm : 0 < mu) by (apply Rdiv_lt_0_compat; lra).
      assert (Pk : 0 < 3 * l + 2 * mu).
      { replace (3 * l + 2 * mu) with (E / (1 - 2 * nu)) by (unfold l, mu; field; lra). apply Rdiv_lt_0_compat; lra. }
      assert (DT : T * T <= 3 * D).
      { unfold T, D, sum3. set (a := A 0%nat 0%nat). set (b := A 1%nat 1%nat). set (c := A 2%nat 2%nat).
        set (p := / 2 * (A 0%nat 1%nat + A 1%nat 0%nat)). set (q := / 2 * (A 0%nat 2%nat + A 2%nat 0%nat)). set (r := / 2 * (A 1%nat 2%nat + A 2%nat 1%nat)).
        replace (/ 2 * (A 1%nat 0%nat + A 0%nat 1%nat)) with p by (unfold p; ring). replace (/ 2 * (A 2%nat 0%nat + A 0%nat 2%nat)) with q by (unfold q; ring).
        replace (/ 2 * (A 2%nat 1%nat + A 1%nat 2%nat)) with r by (unfold r; ring). replace (/ 2 * (a + a)) with a by field. replace (/ 2 * (b + b)) with b by field. replace (/ 2 * (c + c)) with c by field.
        pose proof (Rle_0_sqr (a - b)). pose proof (Rle_0_sqr (a - c)). pose proof (Rle_0_sqr (b - c)). pose proof (Rle_0_sqr p). pose proof (Rle_0_sqr q). pose proof (Rle_0_sqr r). unfold Rsqr in *. nra. }
      assert (NT : T <> 0).
      { intros HT. apply NQ. pose proof (trace_below Q 0 HQ ltac:(lia)). pose proof (trace_below Q 1 HQ ltac:(lia)). pose proof (trace_below Q 2 HQ ltac:(lia)).
        unfold T, A, delta in HT. cbn [Nat.eqb] in HT. apply unstrained; [exact HQ| | |]; lra. }
      assert (PT : 0 < T * T) by nra.
      assert (3 * (l * T * T + 2 * mu * D) >= (3 * l + 2 * mu) * (T * T)) by nra. nra. }
    assert (TERM : forall row g, In row (elements m) -> In g (integration_points (type m)) ->
      l * tr (small_strain (field_gradient (type m) (x0 m) u row (fst g))) * tr (small_strain (field_gradient (type m) (x0 m) u row (fst g))) +
      2 * mu * double_dot (small_strain (field_gradient (type m) (x0 m) u row (fst g))) (small_strain (field_gradient (type m) (x0 m) u row (fst g))) = l * T * T + 2 * mu * D).
    { intros row g Hr Hg. pose proof (GA row g Hr Hg) as G. unfold tr, double_dot, small_strain, sum3. rewrite !entries_of_entries by lia. rewrite !G by lia. unfold T, D, sum3. field. }
    assert (PW : forall g, In g (integration_points (type m)) -> 0 < snd g).
    { intros g Hg. destruct (type m) as [|[|] ].
      - apply (weights_positive Tetrahedron_Linear g Hg).
      - cbn [integration_points] in Hg. destruct Hg as [<-|[] ]. cbn [snd]. lra.
      - apply (weights_positive Hexahedron_Linear g Hg). }
    assert (NE : integration_points (type m) <> []) by (destruct (type m) as [|[|] ]; discriminate).
    unfold linear_elastic_work. cbv zeta. fold l mu.
    assert (POS : forall (B : Type) (h : B -> R) L, L <> [] -> (forall b, In b L -> 0 < h b) -> 0 < Rsum (map h L)).
    { intros B h L. induction L as [|b L IH]; intros HL HP; [contradiction|]. pose proof (HP b (or_introl eq_refl)) as P0. destruct L as [|b' L]; [cbn [map Rsum fold_right]; lra|].
      assert (P1 : 0 < Rsum (map h (b' :: L))) by (apply IH; [discriminate|intros; apply HP; right; assumption]). change (0 < h b + Rsum (map h (b' :: L))). lra. }
    apply POS; [apply VM|]. intros row Hr. apply POS; [exact NE|]. intros g Hg. rewrite TERM by assumption.
    pose proof (PW g Hg). pose proof (proj1 (Forall_forall _ _) (proj1 (Forall_forall _ _) OR row Hr) g Hg). apply Rmult_lt_0_compat; [apply Rmult_lt_0_compat; assumption|exact PD].
Qed.
Print Assumptions C102_without_option_refuted.

(** ** Scenes in another frame *)

Definition plain_tetrahedron : mesh :=
  {| type := TetrahedronElastic; x0 := [[0; 0; 0]; [1; 0; 0]; [0; 1; 0]; [0; 0; 1]]; elements := [[0; 1; 2; 3]%nat] |}.
Definition in_frame (Q : list (list R)) (t : list R) (m : mesh) : mesh := {| type := type m; x0 := rigid Q t (x0 m); elements := elements m |}.
Lemma plain_tetrahedron_valid : valid_mesh plain_tetrahedron.
Proof.
  valid_tac. cbn [type plain_tetrahedron integration_points]. unfold gauss_nodes, Tetrahedron_Linear_gauss. cbn [firstn].
  constructor; [|constructor]. match goal with |- det ?J <> 0 => assert (H : det J = 1) end; [unfold gather; cbn; ring|]. rewrite H. lra.
Qed.
Lemma quarter_scene : in_frame quarter_turn [0; 0; 0] plain_tetrahedron = turned_tetrahedron.
Proof. unfold in_frame, plain_tetrahedron, turned_tetrahedron, rigid, quarter_turn. cbn [type x0 elements map]. f_equal. unfold matvec, vdot, vadd. cbn. repeat (f_equal; try ring). Qed.
Lemma plain_frame : frame TetrahedronElastic (gather (x0 plain_tetrahedron) [0; 1; 2; 3]%nat) = Id3.
Proof.
  cbn [frame]. unfold tetrahedron_frame, gather. cbn [x0 plain_tetrahedron map nth].
  assert (A : vminus [1; 0; 0] [0; 0; 0] = [1; 0; 0]) by (unfold vcross; cbn; list3; ring).
  assert (B : vminus [0; 1; 0] [0; 0; 0] = [0; 1; 0]) by (unfold vcross; cbn; list3; ring).
  rewrite A, B. rewrite (normalized_unit 1 0 0), (normalized_unit 0 1 0) by ring.
  assert (C : vcross [1; 0; 0] [0; 1; 0] = [0; 0; 1]) by (unfold vcross; cbn; list3; ring). rewrite C. rewrite (normalized_unit 0 0 1) by ring.
  assert (D : vcross [0; 0; 1] [1; 0; 0] = [0; 1; 0]) by (unfold vcross; cbn; list3; ring). rewrite D. rewrite (normalized_unit 0 1 0) by ring. reflexivity.
Qed.
Lemma power_of_turned N Q f v : rotation Q -> field N 3 f -> field N 3 v -> power (turned Q f) (turned Q v) = power f v.
Proof.
  intros HQ Ff Fv. pose proof (proj1 HQ) as MQ. rewrite (power_weighted N (turned Q f)), (power_weighted N f) by (first [assumption | apply turned_field; [exact MQ|apply Ff] | apply turned_field; [exact MQ|apply Fv]]).
  unfold weighted. apply Rsum_ext. intros p _. unfold sum3. rewrite !(turned_entries N) by (first [assumption | lia]).
  transitivity (sum3 (fun a => sum3 (fun b => entries f p a * entries v p b * sum3 (fun k => entries Q k a * entries Q k b)))); [unfold sum3; ring|].
  rewrite (sum3_ext _ (fun a => sum3 (fun b => entries f p a * entries v p b * delta a b))); [unfold sum3, delta; cbn [Nat.eqb]; ring|].
  intros a Ha. apply sum3_ext. intros b Hb. rewrite orthonormal by assumption. reflexivity.
Qed.

(** With the option on, the same body in a turned frame is another body: its stiffness along the first edge is halved. *)
Theorem C102_corotational_scene_refuted :
  exists m Q t E nu dx df, let N := length (x0 m) in let m' := in_frame Q t m in
    valid_mesh m /\ valid_mesh m' /\ rotation Q /\ length t = 3%nat /\ 0 < E /\ -1 < nu < / 2 /\ field N 3 dx /\ field N 3 df /\
    addDForce m' (after m' (fresh true E nu) [Reinit; AddForce (x0 m') (turned Q df)]) 1 (turned Q dx) (turned Q df) <>
    option_map (turned Q) (addDForce m (after m (fresh true E nu) [Reinit; AddForce (x0 m) df]) 1 dx df).
Proof.
  set (m := plain_tetrahedron). set (dx := [[0; 0; 0]; [1; 0; 0]; [0; 0; 0]; [0; 0; 0]]). set (df := [[0; 0; 0]; [0; 0; 0]; [0; 0; 0]; [0; 0; 0]]).
  set (dx' := [[0; 0; 0]; [0; 1; 0]; [0; 0; 0]; [0; 0; 0]]).
  assert (Fx : field 4 3 dx) by (split; [reflexivity|repeat constructor]). assert (Ff : field 4 3 df) by (split; [reflexivity|repeat constructor]).
  assert (Fx' : field 4 3 dx') by (split; [reflexivity|repeat constructor]).
  assert (Tx : turned quarter_turn dx = dx') by (unfold turned, dx, dx', quarter_turn, matvec, vdot; cbn; repeat (f_equal; try ring)).
  assert (Tf : turned quarter_turn df = df) by (unfold turned, df, quarter_turn, matvec, vdot; cbn; repeat (f_equal; try ring)).
  exists m, quarter_turn, [0; 0; 0], 1, 0, dx, df. cbv zeta. change (in_frame quarter_turn [0; 0; 0] m) with (in_frame quarter_turn [0; 0; 0] plain_tetrahedron). rewrite quarter_scene, Tx, Tf. pose proof turned_tetrahedron_valid as VT. pose proof plain_tetrahedron_valid as VP.
  repeat split; try lra; try apply VP; try apply VT; try apply quarter_turn_rotation; try (repeat constructor).
  destruct (C70_corotated_aligned_partial m 1 0 df 1 dx df VP) as (d1 & A1 & Fd1 & W1); [constructor; [exact plain_frame|constructor]|exact Fx|exact Ff|].
  rewrite A1. cbn [option_map]. set (mt := turned_tetrahedron) in *. set (s := after mt (fresh true 1 0) [Reinit; AddForce (x0 mt) df]).
  assert (O : once mt 1 0 s) by (apply (once_step mt 1 0 (reinit mt (fresh true 1 0)) (AddForce (x0 mt) df) VT I), once_reinit; exact VT).
  destruct O as [IN QQ].
  assert (Q0 : quad_of s 0 = [ {| weight := 1 / 6; jacobian_determinant := 1; dN_dx := [[1; -1; -1]; [0; 1; 0]; [-1; 0; 0]; [0; 0; 1]] |} ]) by (rewrite (QQ 0%nat) by (cbn; lia); exact turned_gauss).
  destruct (dforce_work mt s 1 0 1 dx' df dx' 4 VT eq_refl IN Fx' Ff Fx') as (d2 & A2 & _ & W2). rewrite A2. intros [= C]. subst d2.
  assert (WS : works mt s 1 0 (fun e => uincr (R1_of s e) dx' (row_of_element mt e)) (fun e => uincr (R1_of s e) dx' (row_of_element mt e)) = / 12).
  { unfold works. cbn [elements mt turned_tetrahedron length seq map Rsum fold_right].
    rewrite Q0. change (row_of_element mt 0) with [0; 1; 2; 3]%nat. cbn [map Rsum fold_right jacobian_determinant weight dN_dx].
    assert (R : R1_of s 0 = quarter_turn) by (exact turned_frame). rewrite R.
    unfold form, lame_l, lame_mu, grad, uincr, sum3, entries, dx', quarter_turn, nn. cbn. field. }
  assert (WL : linear_elastic_work m 1 0 dx dx = / 6).
  { unfold linear_elastic_work. cbv zeta. cbn [m plain_tetrahedron elements type x0 integration_points map]. unfold gauss_nodes, Tetrahedron_Linear_gauss. cbn [firstn map fst snd].
    unfold field_gradient. set (J := jacobian _ _ (gather [[0; 0; 0]; [1; 0; 0]; [0; 1; 0]; [0; 0; 1]] _) _). set (G := jacobian _ _ (gather dx _) _).
    assert (HJ : J = Id3) by (unfold J, gather; cbn; unfold Id3; repeat (f_equal; try ring)). assert (HG : G = [[1; 0; 0]; [0; 0; 0]; [0; 0; 0]]) by (unfold G, gather, dx; cbn; repeat (f_equal; try ring)).
    rewrite HJ, HG. assert (HI : inverse Id3 = Id3) by (unfold Id3, inverse, det; repeat (f_equal; try field)). rewrite HI.
    unfold product, small_strain, tr, double_dot, of_entries, entries, sum3, Id3, det. cbn. field. }
  rewrite WS in W2. specialize (W1 dx Fx). rewrite WL in W1.
  rewrite <- Tx in W2. rewrite (power_of_turned 4) in W2 by (first [exact quarter_turn_rotation | exact Fx | exact Fd1]).
  rewrite <- Tf in W2. rewrite (power_of_turned 4) in W2 by (first [exact quarter_turn_rotation | exact Fx | exact Ff]). lra.
Qed.
Print Assumptions C102_corotational_scene_refuted.

(** ** Witnesses *)

(** Two tetrahedra with a common face, moved by a quarter turn and a translation, from a stretched position. *)
Definition pair_of_tetrahedra : domain :=
  {| dim := 3; kind := Tetrahedron_Linear; positions := [ [0; 0; 0]; [1; 0; 0]; [0; 1; 0]; [0; 0; 1]; [1; 1; 1] ]; connectivity := [ [0; 1; 2; 3]; [4; 1; 2; 3] ]%nat |}.
Definition stretched : list (list R) := [ [0; 0; 0]; [2; 0; 0]; [0; 1; 0]; [0; 0; 1]; [2; 1; 1] ].
Example C102_hyper_hypotheses : solid pair_of_tetrahedra /\ regular pair_of_tetrahedra /\ distinct_nodes pair_of_tetrahedra /\ field 5 3 stretched /\ rotation quarter_turn /\ quarter_turn <> Id3.
Proof.
  split; [split; [repeat constructor; cbn; lia|split; [reflexivity|split; [reflexivity|repeat constructor] ] ]|].
  split; [repeat constructor; intros H; cbv -[Rplus Rmult Rminus Ropp IZR] in H; lra|]. split; [repeat constructor; cbn; lia|]. split; [split; [reflexivity|repeat constructor]|].
  split; [apply quarter_turn_rotation|]. unfold quarter_turn, Id3. intros H. injection H. intros. lra.
Qed.
Example C102_hyper_example : forall k f, field 5 3 f ->
  HyperModel.addForce (before_update k 1000 (/ 3)) pair_of_tetrahedra (rigid quarter_turn [5; 6; 7] stretched) (turned quarter_turn f) =
  option_map (turned quarter_turn) (HyperModel.addForce (before_update k 1000 (/ 3)) pair_of_tetrahedra stretched f).
Proof. intros k f Ff. destruct C102_hyper_hypotheses as (S1 & _ & _ & S2 & S3 & _). apply C102_hyperelastic_forces; [exact S1|exact S3|reflexivity|exact S2|exact Ff]. Qed.
Example C102_corotational_example : forall f, field 8 3 f ->
  snd (addForce cube_mesh (after cube_mesh (fresh true 1000 (/ 3)) [Reinit; AddForce (x0 cube_mesh) f; SetData true 500 (/ 4); Reinit]) (rigid quarter_turn [0; 0; 5] (map (fun p => [2 * nth 0 p 0; nth 1 p 0; nth 2 p 0]) (x0 cube_mesh))) (turned quarter_turn f)) =
  option_map (turned quarter_turn) (snd (addForce cube_mesh (after cube_mesh (fresh true 1000 (/ 3)) [Reinit; AddForce (x0 cube_mesh) f; SetData true 500 (/ 4); Reinit]) (map (fun p => [2 * nth 0 p 0; nth 1 p 0; nth 2 p 0]) (x0 cube_mesh)) f)).
Proof.
  intros f Ff. apply C102_corotational_forces; [apply cube_mesh_valid|repeat constructor|apply quarter_turn_rotation|reflexivity|split; [reflexivity|repeat constructor]|exact Ff].
Qed.
Example C102_without_option_example : forall f, field 4 3 f ->
  snd (addForce plain_tetrahedron (after plain_tetrahedron (fresh false 1000 (/ 3)) [Reinit]) (rigid quarter_turn [0; 0; 5] (x0 plain_tetrahedron)) (turned quarter_turn f)) <> Some (turned quarter_turn f).
Proof.
  intros f Ff. apply (C102_without_option_refuted plain_tetrahedron 1000 (/ 3) [] quarter_turn [0; 0; 5] f); try lra; try reflexivity; try exact Ff; try apply plain_tetrahedron_valid; try apply quarter_turn_rotation; try constructor.
  - cbn [type plain_tetrahedron integration_points]. unfold gauss_nodes, Tetrahedron_Linear_gauss. cbn [firstn].
    constructor; [|constructor]. match goal with |- 0 < det ?J => assert (H : det J = 1) end; [unfold gather; cbn; ring|]. rewrite H. lra.
  - constructor.
  - unfold quarter_turn, Id3. intros H. injection H. intros. lra.
Qed.
