(** C59, C60, C70, C71: the corotational linear elastic force fields of tetrahedra and hexahedra. *)

From Coq Require Import ZArith Reals Lra Lia.
From Coquelicot Require Import Coquelicot.
From Coq Require Import List Arith Bool.
From Verif Require Import GridGeoModel ShapeModel ShapeSpec ShapeProofs ShapeFieldProofs LinAlg LinAlgProofs RectModel RectProofs BarycentricModel MappingSpec MappingProofs TensorModel TensorSpec
  MaterialModel MaterialSpec MaterialProofs MaterialProperties SparseModel SparseProofs Sums TractionModel TractionProofs HyperModel HyperSpec HyperProofs HyperProofs2 HyperProofs3 HyperProofs4 HyperProperties
  CorotModel CorotSpec CorotProofs CorotProofs2 CorotProofs3 CorotProofs4.
Import ListNotations.
Open Scope R_scope.

(** ** C59 *)

(** Whatever was done before, as long as the option stayed on: at any rigid motion of the rest positions, nothing is added. *)
Theorem C59_rigid_motion :
  forall m E nu calls Q t f, valid_mesh m -> Forall (keeps_corotated true) calls -> rotation Q -> length t = 3%nat ->
    field (length (x0 m)) 3 f ->
    snd (addForce m (after m (fresh true E nu) calls) (rigid Q t (x0 m)) f) = Some f.
Proof.
  intros m E nu calls Q t f VM K HQ Lt Ff. apply rigid_no_force; try assumption.
  - apply after_reached; [exact VM|apply fresh_reached].
  - apply after_rest_rotations; [exact VM|exact K|]. split; [reflexivity|left; reflexivity].
Qed.
Print Assumptions C59_rigid_motion.

(** After any history, at any positions, what is added sums to zero. *)
Theorem C59_balanced :
  forall m c E nu calls x f, valid_mesh m -> field (length (x0 m)) 3 x -> field (length (x0 m)) 3 f ->
    exists f', snd (addForce m (after m (fresh c E nu) calls) x f) = Some f' /\ total 3 f' = total 3 f.
Proof.
  intros m c E nu calls x f VM Fx Ff. set (N := length (x0 m)) in *. set (s := after m (fresh c E nu) calls).
  assert (RE : reached m s) by (apply after_reached; [exact VM|apply fresh_reached]).
  assert (EX : exists f', snd (addForce m s x f) = Some f').
  { destruct RE as [V|(E' & nu' & IN)]; [exists f; apply addForce_virgin; assumption|].
    destruct (addForce_spec m s E' nu' x f N VM eq_refl IN Fx Ff) as (f' & H & _). exists f'. exact H. }
  destruct EX as (f' & H). exists f'. split; [exact H|].
  apply (nth_ext _ _ 0 0); [reflexivity|]. intros k Hk. change (length (total 3 f')) with 3%nat in Hk.
  destruct (forces_balanced m s x f f' k N VM eq_refl RE Fx Ff Hk H) as [Ff' W].
  rewrite (total_power N f' k Ff' Hk), (total_power N f k Ff Hk), !(power_weighted N) by (assumption || apply unit_velocity_field).
  assert (U : forall h, weighted N h (entries (unit_velocity k N)) = weighted N h (fun _ c => if Nat.eqb c k then 1 else 0)).
  { intros h. apply Rsum_ext. intros p Hp. apply in_seq in Hp. apply sum3_ext. intros c' Hc. rewrite unit_velocity_entries by lia. reflexivity. }
  rewrite !U. exact W.
Qed.
Print Assumptions C59_balanced.

(** ** C60 *)

Lemma after_app m s a b : after m s (a ++ b) = after m (after m s a) b.
Proof. apply fold_left_app. Qed.
Lemma step_initialised m s a : valid_mesh m -> (exists E nu, initialised m s E nu) -> exists E nu, initialised m (step m s a) E nu.
Proof.
  intros VM I. destruct (step_reached m s a VM (or_intror I)) as [(Vq & Vk & _)|H]; [|exact H]. exfalso.
  assert (L : length (p_quadrature_nodes (step m s a)) = length (elements m)).
  { destruct I as (E & nu & (Lq & I')). destruct a as [c E' nu'| |x f|k dx df|k off|]; cbn [step]; try exact Lq.
    - destruct (reinit_spec m s VM) as (_ & _ & _ & -> & _). apply new_quadrature_spec; [exact VM|]. apply I'.
    - unfold addForce. destruct (negb _); exact Lq.
    - unfold K. destruct (K_is_up_to_date s); exact Lq. }
  rewrite Vq in L. destruct VM as [N _]. destruct (elements m); [contradiction|discriminate].
Qed.
Lemma after_initialised m calls : forall s, valid_mesh m -> (exists E nu, initialised m s E nu) -> exists E nu, initialised m (after m s calls) E nu.
Proof.
  induction calls as [|a calls IH]; intros s VM I; [exact I|]. apply (IH (step m s a) VM). apply step_initialised; assumption.
Qed.
Lemma initialised_history m c E nu earlier later : valid_mesh m -> exists E' nu', initialised m (after m (fresh c E nu) (earlier ++ Reinit :: later)) E' nu'.
Proof.
  intros VM. rewrite after_app. apply (after_initialised m later (reinit m (after m (fresh c E nu) earlier)) VM).
  eexists _, _. apply (reinit_initialised m _ VM). apply after_reached; [exact VM|apply fresh_reached].
Qed.

(** After any history with an initialisation: the entries added to the system matrix are in the block of the mechanical
    state, they make a symmetric matrix, and the force increment is this matrix times the displacement. *)
Theorem C60_matrix_and_increment_partial :
  forall m c E nu earlier later k offset, valid_mesh m ->
    let s := after m (fresh c E nu) (earlier ++ Reinit :: later) in
    let N := length (x0 m) in
    exists ts, addKToMatrix m s k offset = Some ts /\
      (forall i j, coeff ts i j = coeff ts j i) /\
      Forall (fun t => (offset <= row_of t < offset + N * 3 /\ offset <= col_of t < offset + N * 3)%nat) ts /\
      forall dx df, field N 3 dx -> field N 3 df -> exists df', addDForce m s k dx df = Some df' /\ field N 3 df' /\
        forall p c, (c < 3)%nat -> nth c (nth p df' []) 0 = nth c (nth p df []) 0 +
          Rsum (map (fun j => coeff ts (offset + (p * 3 + c))%nat (offset + j)%nat * nth j (concat dx) 0) (seq 0 (N * 3))).
Proof.
  intros m c E0 nu0 earlier later kf off VM s N. destruct (initialised_history m c E0 nu0 earlier later VM) as (E & nu & IN). fold s in IN.
  destruct (addKToMatrix_spec m s E nu kf off VM IN) as (ts & A & B & T). exists ts. split; [exact A|]. split; [|split; [exact B|]].
  - intros i j. rewrite !coeff_tsum, !T. apply Rsum_ext. intros e _.
    rewrite (Rsum_swap _ _ (fun p q => _) (seq 0 (nn m)) (seq 0 (nn m))). apply Rsum_ext. intros p _. apply Rsum_ext. intros q _.
    assert (SW : forall h : nat -> nat -> R, sum3 (fun a => sum3 (fun b => h a b)) = sum3 (fun a => sum3 (fun b => h b a))) by (intros h; unfold sum3; ring).
    rewrite SW. apply sum3_ext. intros a _. apply sum3_ext. intros b _. rewrite tblock_symmetric. f_equal. rewrite andb_comm. reflexivity.
  - intros dx df Fx Ff. destruct (addDForce_spec m s E nu kf dx df N VM eq_refl IN Fx Ff) as (df' & D & Fd & V).
    exists df'. split; [exact D|]. split; [exact Fd|]. intros p c' Hc. change (nth c' (nth p df' []) 0) with (entries df' p c'). rewrite (V p c' Hc).
    change (nth c' (nth p df []) 0) with (entries df p c'). unfold Rminus. apply f_equal.
    rewrite (row_times ts off (N * 3) (off + (p * 3 + c')) (fun j => nth j (concat dx) 0)) by (eapply Forall_impl; [|exact B]; cbv beta; intros t H; apply H).
    rewrite T, <- Rsum_opp. apply Rsum_ext. intros e He. apply in_seq in He. rewrite <- Rsum_opp. apply Rsum_ext. intros i Hi. apply in_seq in Hi.
    destruct (Nat.eqb_spec (nth i (row_of_element m e) 0%nat) p) as [Ep|Ep].
    + subst p. rewrite (Rsum_ext _ _ (fun j => sum3 (fun b => tblock m s E nu kf e i j c' b * entries dx (nth j (row_of_element m e) 0%nat) b))).
      * unfold corot_dforce.
        assert (LF : forall k, local_force E nu (quad_of s e) (nn m) (uincr (R1_of s e) dx (row_of_element m e)) i k =
          Rsum (map (fun j => sum3 (fun l => blk E nu (quad_of s e) i j k l * uincr (R1_of s e) dx (row_of_element m e) j l)) (seq 0 (nn m)))) by reflexivity.
        unfold sum3 at 1. rewrite !LF, <- !Rsum_scal_l, <- !Rsum_plus, <- Rsum_scal_l, <- Rsum_opp. apply Rsum_ext. intros j _.
        unfold tblock, uincr, sum3. ring.
      * intros j Hj. set (P := nth j (row_of_element m e) 0%nat).
        assert (Z : forall a b, (a < 3)%nat -> (b < 3)%nat -> (if Nat.eqb (off + nth i (row_of_element m e) 0%nat * 3 + a)%nat (off + (nth i (row_of_element m e) 0%nat * 3 + c'))%nat then nth (off + P * 3 + b - off)%nat (concat dx) 0 else 0) =
           if Nat.eqb a c' then entries dx P b else 0).
        { intros a b Ha Hb. destruct (Nat.eqb_spec a c') as [-> |Hne].
          - rewrite (proj2 (Nat.eqb_eq _ _)) by lia. replace (off + P * 3 + b - off)%nat with (P * 3 + b)%nat by lia. apply concat_nth; [apply Fx|exact Hb].
          - rewrite (proj2 (Nat.eqb_neq _ _)) by lia. reflexivity. }
        transitivity (sum3 (fun a => sum3 (fun b => tblock m s E nu kf e i j a b * (if Nat.eqb a c' then entries dx P b else 0)))).
        { apply sum3_ext. intros a Ha. apply sum3_ext. intros b Hb. rewrite Z by assumption. reflexivity. }
        unfold sum3. destruct c' as [|[|[|]]]; try lia; cbn [Nat.eqb]; ring.
    + rewrite Ropp_0. symmetry. apply Rsum_zero. intros j _.
      transitivity (sum3 (fun a => sum3 (fun b => 0))); [|unfold sum3; ring]. apply sum3_ext. intros a Ha. apply sum3_ext. intros b Hb.
      rewrite (proj2 (Nat.eqb_neq _ _)) by lia. ring.
Qed.
Print Assumptions C60_matrix_and_increment_partial.

(** ** C70 *)

Definition evaluation (a : call) : Prop := match a with SetData _ _ _ | Reinit => False | _ => True end.

Definition displacement (m : mesh) (x : list (list R)) : list (list R) := map2 vminus x (x0 m).
Lemma displacement_field m x : field (length (x0 m)) 3 x -> field (length (x0 m)) 3 (x0 m) -> field (length (x0 m)) 3 (displacement m x) /\
  forall p c, (p < length (x0 m))%nat -> (c < 3)%nat -> entries (displacement m x) p c = entries x p c - entries (x0 m) p c.
Proof.
  intros [Lx Fx] [L0 F0]. unfold displacement.
  assert (ND : forall p, (p < length (x0 m))%nat -> nth p (map2 vminus x (x0 m)) [] = vminus (nth p x []) (nth p (x0 m) [])).
  { intros p Hp. rewrite (map2_nth_seq _ _ _ _ [] []) by exact Lx. rewrite nth_map_seq' by lia. reflexivity. }
  split.
  - split; [rewrite map2_combine, map_length, combine_length; lia|]. apply Forall_forall. intros v Hv. apply (In_nth _ _ []) in Hv. destruct Hv as (p & Hp & <-).
    rewrite map2_combine, map_length, combine_length in Hp. rewrite ND by lia. apply vminus_length3; [apply (field_row (length (x0 m))); [split; assumption|lia]|apply (field_row (length (x0 m))); [split; assumption|lia]].
  - intros p c Hp Hc. unfold entries. rewrite ND by exact Hp.
    pose proof (field_row (length (x0 m)) x p (conj Lx Fx) Hp) as L1. pose proof (field_row (length (x0 m)) (x0 m) p (conj L0 F0) Hp) as L2.
    destruct (len3 _ _ L1) as (? & ? & ? & ->). destruct (len3 _ _ L2) as (? & ? & ? & ->). destruct c as [|[|[|]]]; try lia; reflexivity.
Qed.

(** The quadrature nodes, the rotations and the parameters after an initialisation of a fresh force field. *)
Definition once (m : mesh) (E nu : R) (s : state) : Prop :=
  initialised m s E nu /\ forall e, (e < length (elements m))%nat -> quad_of s e = gauss_nodes_of (type m) (gather (x0 m) (row_of_element m e)).
Lemma reinit_quad m s e : valid_mesh m -> (e < length (elements m))%nat ->
  quad_of (reinit m s) e = (match type m with TetrahedronElastic => [] | HexahedronElastic _ => quad_of s e end) ++ gauss_nodes_of (type m) (gather (x0 m) (row_of_element m e)).
Proof.
  intros VM He. destruct (reinit_spec m s VM) as (_ & _ & _ & Eq & _). unfold quad_of at 1. rewrite Eq. unfold new_quadrature.
  rewrite (map2_nth_seq _ _ _ _ [] []) by apply resize_length. rewrite resize_length. rewrite (nth_map' _ _ _ _ _ 0%nat) by (rewrite seq_length; exact He). rewrite seq_nth by exact He. cbn [Nat.add]. fold (row_of_element m e). f_equal.
  assert (RS : forall q : list (list gauss_node), nth e (resize q (length (elements m)) []) [] = nth e q []).
  { intros q. unfold resize. destruct (Nat.lt_ge_cases e (length q)) as [H|H].
    - rewrite app_nth1 by (rewrite firstn_length; lia).
      rewrite <- (firstn_skipn (length (elements m)) q) at 2. rewrite app_nth1 by (rewrite firstn_length; lia). reflexivity.
    - rewrite app_nth2 by (rewrite firstn_length; lia). rewrite nth_repeat. symmetry. apply nth_overflow. exact H. }
  destruct (type m); rewrite RS; [destruct e; reflexivity|reflexivity].
Qed.
Lemma once_reinit m c E nu : valid_mesh m -> once m E nu (reinit m (fresh c E nu)).
Proof.
  intros VM. split; [exact (reinit_initialised m (fresh c E nu) VM (fresh_reached m c E nu))|].
  intros e He. rewrite reinit_quad by assumption. destruct (type m); [reflexivity|]. unfold quad_of. cbn [fresh p_quadrature_nodes]. destruct e; reflexivity.
Qed.
Lemma once_step m E nu s a : valid_mesh m -> evaluation a -> once m E nu s -> once m E nu (step m s a).
Proof.
  intros VM Ha [I Q]. pose proof I as (Lq & Ek & Fq & I0 & I1). destruct a as [c E' nu'| |x f|k dx df|k off|]; try contradiction; cbn [step].
  - unfold addForce. rewrite Ek, map_length, Lq, Nat.eqb_refl. cbn [negb fst]. split; [|exact Q].
    split; [exact Lq|]. split; [reflexivity|]. split; [exact Fq|]. split; [exact I0|]. exact (rotations_after_spec m s E nu x I).
  - split; assumption.
  - split; assumption.
  - unfold K. destruct (K_is_up_to_date s); split; assumption.
Qed.

Lemma uincr_identity dx row j k : (k < 3)%nat -> uincr Id3 dx row j k = entries dx (nth j row 0%nat) k.
Proof. intros Hk. unfold uincr, sum3, entries, Id3. destruct k as [|[|[|]]]; try lia; cbn; ring. Qed.
Lemma udisp_identity X x row j k : (k < 3)%nat -> udisp Id3 Id3 X x row j k = entries x (nth j row 0%nat) k - entries X (nth j row 0%nat) k.
Proof. intros Hk. unfold udisp, sum3, entries, Id3. destruct k as [|[|[|]]]; try lia; cbn; ring. Qed.

(** Option off: the forces are those of isotropic linear elasticity for the displacement from rest, in weak form. *)
Theorem C70_without_corotation :
  forall m E nu calls x f, valid_mesh m -> Forall evaluation calls -> field (length (x0 m)) 3 x -> field (length (x0 m)) 3 f ->
    exists f', snd (addForce m (after m (fresh false E nu) (Reinit :: calls)) x f) = Some f' /\ field (length (x0 m)) 3 f' /\
      forall v, field (length (x0 m)) 3 v -> power f' v = power f v - linear_elastic_work m E nu (displacement m x) v.
Proof.
  intros m E nu calls x f VM FC Fx Ff. set (N := length (x0 m)) in *. cbn [after fold_left step].
  change (fold_left (step m) calls (reinit m (fresh false E nu))) with (after m (reinit m (fresh false E nu)) calls).
  set (off := fun s => corotated s = false /\ p_initial_rotation s = repeat Id3 (length (elements m)) /\ p_current_rotation s = repeat Id3 (length (elements m))).
  assert (I : forall calls s, Forall evaluation calls -> once m E nu s -> off s -> once m E nu (after m s calls) /\ off (after m s calls)).
  { clear - VM. induction calls as [|a calls IH]; intros s FC O F; [split; assumption|]. inversion_clear FC as [|? ? Ha FC']. apply IH; [exact FC'|apply once_step; assumption|].
    destruct F as (C & R0 & R1). destruct a as [c E' nu'| |x f|k dx df|k o|]; try contradiction; cbn [step].
    - unfold addForce. destruct (negb _); cbn [fst]; [split; [|split]; assumption|]. split; [exact C|]. split; [exact R0|]. cbn [p_current_rotation]. rewrite C. exact R1.
    - split; [|split]; assumption.
    - split; [|split]; assumption.
    - unfold K. destruct (K_is_up_to_date s); split; [|split| |split]; assumption. }
  destruct (I calls (reinit m (fresh false E nu)) FC (once_reinit m false E nu VM)) as [[IN Q] (C & R0 & R1)].
  { unfold off. destruct (reinit_spec m (fresh false E nu) VM) as (-> & _ & _ & _ & _ & -> & -> & _). cbn [fresh corotated p_initial_rotation p_current_rotation].
    split; [reflexivity|]. unfold resize. rewrite firstn_nil. cbn [app length]. rewrite Nat.sub_0_r. split; reflexivity. }
  set (s := after m (reinit m (fresh false E nu)) calls) in *.
  destruct (addForce_spec m s E nu x f N VM eq_refl IN Fx Ff) as (f' & E1 & Ff' & _). exists f'. split; [exact E1|]. split; [exact Ff'|].
  intros v Fv. destruct (force_work m s E nu x f v N VM eq_refl IN Fx Ff Fv) as (f'' & E2 & _ & W). rewrite E1 in E2. injection E2 as <-. rewrite W. f_equal.
  unfold rotations_after. rewrite C.
  assert (Ri : forall e, (e < length (elements m))%nat -> nth e (p_current_rotation s) [] = Id3 /\ R0_of s e = Id3).
  { intros e He. unfold R0_of. rewrite R0, R1. split; rewrite (nth_indep _ [] Id3) by (rewrite repeat_length; exact He); apply nth_repeat. }
  assert (FX : field N 3 (x0 m)) by apply VM.
  apply works_linear; [exact VM|exact Q| |].
  - intros e j k He Hj Hk. destruct (Ri e He) as [-> ->]. rewrite udisp_identity by exact Hk. destruct (valid_row m e VM He) as [Lr Fr]. symmetry.
    apply (displacement_field m x Fx FX); [|exact Hk]. apply (proj1 (Forall_forall _ _) Fr). apply nth_In. rewrite Lr. exact Hj.
  - intros e j k He Hj Hk. destruct (Ri e He) as [-> _]. apply uincr_identity. exact Hk.
Qed.
Print Assumptions C70_without_corotation.

(** Option on, elements whose rest frame is the world frame, positions at rest: the force increment is the one of isotropic
    linear elasticity. *)
Theorem C70_corotated_aligned_partial :
  forall m E nu f k dx df, valid_mesh m -> Forall (fun row => frame (type m) (gather (x0 m) row) = Id3) (elements m) ->
    field (length (x0 m)) 3 dx -> field (length (x0 m)) 3 df ->
    exists df', addDForce m (after m (fresh true E nu) [Reinit; AddForce (x0 m) f]) k dx df = Some df' /\ field (length (x0 m)) 3 df' /\
      forall v, field (length (x0 m)) 3 v -> power df' v = power df v - k * linear_elastic_work m E nu dx v.
Proof.
  intros m E nu f k dx df VM AL Fx Ff. set (N := length (x0 m)) in *. set (s := after m (fresh true E nu) [Reinit; AddForce (x0 m) f]).
  assert (O : once m E nu s) by (apply (once_step m E nu (reinit m (fresh true E nu)) (AddForce (x0 m) f) VM I), once_reinit; exact VM).
  destruct O as [IN Q].
  assert (Ri : forall e, (e < length (elements m))%nat -> R1_of s e = Id3).
  { intros e He. unfold s. cbn [after fold_left step]. unfold addForce.
    destruct (reinit_spec m (fresh true E nu) VM) as (Ec & _ & _ & Eq & Ek & _).
    assert (LL : length (p_stiffness_matrices (reinit m (fresh true E nu))) = length (elements m)) by (rewrite Ek, map_length; apply new_quadrature_spec; [exact VM|constructor]).
    rewrite LL, Nat.eqb_refl. cbn [negb fst]. unfold R1_of. cbn [p_current_rotation]. rewrite Ec. cbn [fresh corotated].
    rewrite (nth_map' _ _ _ _ _ []) by exact He. apply (proj1 (Forall_forall _ _) AL). apply nth_In. exact He. }
  destruct (addDForce_spec m s E nu k dx df N VM eq_refl IN Fx Ff) as (f' & E1 & Ff' & _). exists f'. split; [exact E1|]. split; [exact Ff'|].
  intros v Fv. destruct (dforce_work m s E nu k dx df v N VM eq_refl IN Fx Ff Fv) as (f'' & E2 & _ & W). rewrite E1 in E2. injection E2 as <-. rewrite W. f_equal. f_equal.
  apply works_linear; [exact VM|exact Q| |]; intros e j c He Hj Hc; rewrite (Ri e He); apply uincr_identity; exact Hc.
Qed.
Print Assumptions C70_corotated_aligned_partial.

(** ** C71 *)

(** Tetrahedra: initialising again changes nothing. *)
Theorem C71_reinit_tetrahedra_partial :
  forall m s, type m = TetrahedronElastic -> valid_mesh m -> reinit m (reinit m s) = reinit m s.
Proof.
  intros m s T VM. unfold reinit. rewrite (valid_is_true m VM), T. cbn [negb corotated p_initial_rotation p_current_rotation youngModulus poissonRatio p_K K_is_up_to_date].
  f_equal.
  - destruct (corotated s); [reflexivity|]. apply resize_same, resize_length.
  - apply resize_same, resize_length.
Qed.
Print Assumptions C71_reinit_tetrahedra_partial.

(** Tetrahedra: after any history where the option is kept, initialising again takes the current parameters into account
    and nothing else: the forces are those of a new force field with these parameters. *)
Theorem C71_history_forgotten_tetrahedra :
  forall m c E nu calls x f, type m = TetrahedronElastic -> valid_mesh m -> Forall (keeps_corotated c) calls ->
    let s := after m (fresh c E nu) calls in
    snd (addForce m (reinit m s) x f) = snd (addForce m (reinit m (fresh c (youngModulus s) (poissonRatio s))) x f).
Proof.
  intros m c E nu calls x f T VM FK s.
  set (inv := fun s => corotated s = c /\ (c = false -> Forall (fun r => r = Id3) (p_initial_rotation s) /\ Forall (fun r => r = Id3) (p_current_rotation s))).
  assert (IV : inv s).
  { unfold s. clear s. assert (I0 : inv (fresh c E nu)) by (split; [reflexivity|intros _; split; constructor]). revert I0. generalize (fresh c E nu) as s.
    induction calls as [|a calls IH]; intros s [C F]; [split; assumption|]. inversion_clear FK as [|? ? Ka FK']. apply (IH FK'). clear IH.
    destruct a as [c' E' nu'| |y g|k dx df|k off|]; cbn [step keeps_corotated] in *.
    - split; [exact Ka|exact F].
    - destruct (reinit_spec m s VM) as (Ec & _ & _ & _ & _ & E0 & E1 & _). split; [congruence|]. intros Hc. destruct (F Hc) as [F0 F1]. rewrite E0, E1, C, Hc.
      split; apply resize_Forall; auto.
    - unfold addForce. destruct (negb _); cbn [fst]; [split; assumption|]. split; [exact C|]. intros Hc. destruct (F Hc) as [F0 F1]. cbn [p_initial_rotation p_current_rotation].
      rewrite C, Hc. split; assumption.
    - split; assumption.
    - split; assumption.
    - unfold K. destruct (K_is_up_to_date s); split; assumption. }
  destruct IV as [C F]. clearbody s.
  destruct (reinit_spec m s VM) as (Ec & _ & _ & Eq & Ek & E0 & E1 & _).
  destruct (reinit_spec m (fresh c (youngModulus s) (poissonRatio s)) VM) as (Ec' & _ & _ & Eq' & Ek' & E0' & E1' & _).
  cbn [fresh corotated youngModulus poissonRatio p_initial_rotation p_current_rotation] in *.
  assert (NQ : new_quadrature m (fresh c (youngModulus s) (poissonRatio s)) = new_quadrature m s) by (unfold new_quadrature; rewrite T; reflexivity).
  assert (AI : forall l, Forall (fun r => r = Id3) l -> resize l (length (elements m)) Id3 = resize [] (length (elements m)) Id3).
  { intros l Fl. unfold resize. rewrite firstn_nil. cbn [app length]. rewrite Nat.sub_0_r. generalize (length (elements m)) as n. induction Fl as [|r l -> Fl IH]; intros n.
    - rewrite firstn_nil. cbn [app length]. rewrite Nat.sub_0_r. reflexivity.
    - destruct n as [|n]; [reflexivity|]. cbn [firstn app length Nat.sub repeat]. f_equal. apply IH. }
  unfold addForce. rewrite Ec, Ek, E0, E1, Ec', Ek', E0', E1', NQ, C. rewrite !map_length.
  destruct (negb _); [reflexivity|]. cbn [snd]. destruct c; [reflexivity|]. destruct (F eq_refl) as [F0 F1]. rewrite (AI _ F0), (AI _ F1). reflexivity.
Qed.
Print Assumptions C71_history_forgotten_tetrahedra.

(** Hexahedra: each initialisation adds the stiffness once more: after n + 1 of them the forces are n + 1 times too large. *)
Theorem C71_reinit_hexahedra_refuted :
  forall m o c E nu x f n, type m = HexahedronElastic o -> valid_mesh m -> field (length (x0 m)) 3 x -> field (length (x0 m)) 3 f ->
    exists f1 fn, snd (addForce m (after m (fresh c E nu) [Reinit]) x f) = Some f1 /\
      snd (addForce m (after m (fresh c E nu) (repeat Reinit (S n))) x f) = Some fn /\
      forall p k, (k < 3)%nat -> nth k (nth p fn []) 0 = nth k (nth p f []) 0 + INR (S n) * (nth k (nth p f1 []) 0 - nth k (nth p f []) 0).
Proof.
  intros m o c E nu x f n T VM Fx Ff. set (N := length (x0 m)) in *.
  set (s1 := after m (fresh c E nu) [Reinit]).
  assert (O1 : once m E nu s1) by (apply once_reinit; exact VM). destruct O1 as [I1 Q1].
  assert (P : forall n, let s := after m (fresh c E nu) (repeat Reinit (S n)) in initialised m s E nu /\ corotated s = c /\ youngModulus s = E /\ poissonRatio s = nu /\
     p_initial_rotation s = p_initial_rotation s1 /\ p_current_rotation s = p_current_rotation s1 /\
     forall e, (e < length (elements m))%nat -> quad_of s e = concat (repeat (gauss_nodes_of (type m) (gather (x0 m) (row_of_element m e))) (S n))).
  { clear n. induction n as [|n IH]; intros s.
    - change s with s1. destruct (reinit_spec m (fresh c E nu) VM) as (Ec & Ee & En & _). split; [exact I1|]. split; [exact Ec|]. split; [exact Ee|]. split; [exact En|].
      split; [reflexivity|]. split; [reflexivity|]. intros e He. rewrite Q1 by exact He. cbn [repeat concat]. rewrite app_nil_r. reflexivity.
    - cbv zeta in IH. set (s' := after m (fresh c E nu) (repeat Reinit (S n))) in *.
      assert (ES : s = reinit m s').
      { unfold s, s'. replace (repeat Reinit (S (S n))) with (repeat Reinit (S n) ++ [Reinit]) by (rewrite <- (repeat_cons (S n) Reinit); reflexivity). apply after_app. }
      destruct IH as (I' & C' & E' & N' & R0' & R1' & Q'). rewrite ES. clearbody s'. clear s ES.
      destruct (reinit_spec m s' VM) as (Ec & Ee & En & _ & _ & E0 & E1 & _).
      split; [rewrite <- E', <- N'; apply reinit_initialised; [exact VM|right; exists E, nu; exact I']|].
      split; [congruence|]. split; [congruence|]. split; [congruence|].
      pose proof I1 as (_ & _ & _ & [L0 _] & [L1 _]).
      split; [|split].
      + rewrite E0, C', R0'. destruct c; [destruct (reinit_spec m (fresh true E nu) VM) as (_ & _ & _ & _ & _ & E0' & _); symmetry; exact E0'|]. apply resize_same. exact L0.
      + rewrite E1, R1'. apply resize_same. exact L1.
      + intros e He. rewrite reinit_quad by assumption. rewrite Q' by exact He. rewrite T.
        set (g := gauss_nodes_of _ _). replace (repeat g (S (S n))) with (repeat g (S n) ++ [g]) by (symmetry; exact (repeat_cons (S n) g)). rewrite concat_app. cbn [concat]. rewrite app_nil_r. reflexivity. }
  destruct (P n) as (In & Cn & _ & _ & R0n & R1n & Qn). set (sn := after m (fresh c E nu) (repeat Reinit (S n))) in *.
  destruct (P 0%nat) as (_ & C1 & _). change (after m (fresh c E nu) (repeat Reinit 1)) with s1 in C1.
  destruct (addForce_spec m s1 E nu x f N VM eq_refl I1 Fx Ff) as (f1 & A1 & _ & V1). destruct (addForce_spec m sn E nu x f N VM eq_refl In Fx Ff) as (fn & An & _ & Vn).
  exists f1, fn. split; [exact A1|]. split; [exact An|]. intros p k Hk.
  change (entries fn p k = entries f p k + INR (S n) * (entries f1 p k - entries f p k)). rewrite (V1 p k Hk), (Vn p k Hk).
  match goal with |- ?a - ?b = ?a + ?n * (?a - ?d - ?a) => assert (H : b = n * d) end.
  2:{ rewrite H. ring. }
  rewrite <- Rsum_scal_l. apply Rsum_ext. intros e He. apply in_seq in He. rewrite <- Rsum_scal_l. apply Rsum_ext. intros a Ha. destruct (Nat.eqb _ p); [|ring].
  unfold corot_force, rotations_after. rewrite Cn, C1, R1n.
  replace (R0_of sn e) with (R0_of s1 e) by (unfold R0_of; rewrite R0n; reflexivity).
  rewrite Q1, Qn by lia. set (gs := gauss_nodes_of _ _).
  assert (B : forall i j a b, blk E nu (concat (repeat gs (S n))) i j a b = INR (S n) * blk E nu gs i j a b).
  { intros i j a' b. generalize (S n) as r. induction r as [|r IH]; [unfold blk; simpl; ring|]. cbn [repeat concat]. unfold blk in *. rewrite map_app, Rsum_app, IH, S_INR. ring. }
  assert (L : forall u i q, local_force E nu (concat (repeat gs (S n))) (nn m) u i q = INR (S n) * local_force E nu gs (nn m) u i q).
  { intros u i q. unfold local_force. rewrite <- Rsum_scal_l. apply Rsum_ext. intros j _. unfold sum3. rewrite !B. ring. }
  unfold sum3. rewrite !L. ring.
Qed.
Print Assumptions C71_reinit_hexahedra_refuted.
