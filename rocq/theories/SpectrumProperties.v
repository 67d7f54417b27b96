(** C90: the stiffness, its eigenvalues and its condition number, as given to a script. *)

From Coq Require Import ZArith Reals Lra Lia Classical.
From Coquelicot Require Import Coquelicot.
From Coq Require Import List Arith Bool.
From Verif Require Import GridGeoModel ShapeModel ShapeSpec ShapeProofs LinAlg LinAlgProofs BarycentricModel MappingSpec TensorModel TensorSpec
  MaterialModel MaterialSpec MaterialProofs SparseModel SparseProofs Sums HyperModel HyperSpec HyperProofs HyperProofs2 HyperProofs3 HyperProofs4 HyperProperties
  SpectrumModel SpectrumSpec SpectrumProofs.
Import ListNotations.
Open Scope R_scope.

(** Whatever the history of the simulation and of the scripts, the eigenvalues given are those of the matrix K() given at
    the same time: the ones kept are never those of another matrix. *)
Theorem C90_eigenvalues :
  forall spectrum d x l E nu m requests,
    let s := served spectrum d (init d x l E nu m) requests in
    exists n A, snd (serve spectrum d s GetK) = Matrix_is n A /\ snd (serve spectrum d s Eigenvalues) = Values (spectrum n A).
Proof.
  intros spectrum d x l E nu m requests s. exists (k_rows s), (K_entries s). split; [reflexivity|].
  cbn [serve snd]. rewrite eigenvalues_coherent; [reflexivity|]. apply coherent_served, coherent_init.
Qed.
Print Assumptions C90_eigenvalues.

(** Questions have no effect: with or without them, every later request gets the same reply. *)
Theorem C90_questions_have_no_effect :
  forall spectrum d x l E nu m before questions after_them request,
    Forall question questions ->
    let s := init d x l E nu m in
    snd (serve spectrum d (served spectrum d s (before ++ questions ++ after_them)) request) =
    snd (serve spectrum d (served spectrum d s (before ++ after_them)) request).
Proof.
  intros spectrum d x l E nu m bef qs aft r Q s. rewrite !served_app. apply same_reply. apply same_served. apply questions_same; [exact Q|].
  apply coherent_served, coherent_init.
Qed.
Print Assumptions C90_questions_have_no_effect.

(** The matrix given by K() right after addKToMatrix is the one that was added, up to the factor; it is symmetric, for
    every history. *)
Theorem C90_same_matrix_as_the_solver :
  forall spectrum d x l E nu m requests kFact offset,
    solid d -> field (length (positions d)) 3 x -> Forall (sized d) requests ->
    let s := served spectrum d (init d x l E nu m) requests in
    exists n A added, snd (serve spectrum d s (Simulation (AddKToMatrix kFact offset))) = Told (Added added) /\
      snd (serve spectrum d (fst (serve spectrum d s (Simulation (AddKToMatrix kFact offset)))) GetK) = Matrix_is n A /\
      n = (length (positions d) * 3)%nat /\
      (forall i j, A i j = A j i) /\
      (forall i j, coeff added (offset + i) (offset + j) = - kFact * A i j).
Proof.
  intros spectrum d x l E nu m requests k o S Fx Z s.
  assert (H : assembled_somewhere d (if_needed d s)).
  { change (if_needed d s) with (fst (serve spectrum d s (Simulation (AddKToMatrix k o)))). apply somewhere_serve; [exact I|].
    apply somewhere_served; [exact Z|]. apply somewhere_init. exact Fx. }
  set (t := if_needed d s) in *. destruct H as (_ & m' & x' & Fx' & P & R).
  exists (k_rows t), (K_entries t), (addKToMatrix (p_K (base t)) (k_rows t) k o). split; [reflexivity|]. split; [reflexivity|]. split; [exact R|].
  unfold K_entries. rewrite P, R. split.
  - intros i j. apply symmetric_K. exact S.
  - intros i j. destruct (C56_matrix m' d x' k o S) as (_ & _ & Q & _). apply Q.
Qed.
Print Assumptions C90_same_matrix_as_the_solver.

(** K() is the matrix of the latest assembly: the one of init, ... *)
Theorem C90_latest_assembly_init :
  forall spectrum d x l E nu m uses waiting,
    Forall quiet uses -> Forall idle waiting ->
    snd (serve spectrum d (served spectrum d (init d x l E nu m) (uses ++ waiting)) GetK) =
    Matrix_is (length x * 3) (coeff (K (assemble_stiffness (before_update l E nu) d x) (length x * 3))).
Proof.
  intros spectrum d x l E nu m uses waiting Q W. rewrite served_app. cbn [serve snd]. unfold K_entries.
  destruct (quiet_kept spectrum d uses Q (init d x l E nu m) (assemble_stiffness (before_update l E nu) d x) (length x * 3)) as [_ H]; [reflexivity|split; reflexivity|].
  apply (idle_kept spectrum d waiting W) in H. destruct H as [-> ->]. reflexivity.
Qed.
Print Assumptions C90_latest_assembly_init.

(** ... the one asked by a script, at the positions it gives and with the parameters of the material at that time, ... *)
Theorem C90_latest_assembly_script :
  forall spectrum d s y uses waiting,
    Forall quiet uses -> Forall idle waiting ->
    snd (serve spectrum d (served spectrum d s (AssembleStiffness y :: uses ++ waiting)) GetK) =
    Matrix_is (length y * 3)
      (coeff (K (assemble_stiffness (before_update (material_law (base s)) (young_modulus (base s)) (poisson_ratio (base s))) d y) (length y * 3))).
Proof.
  intros spectrum d s y uses waiting Q W.
  change (AssembleStiffness y :: uses ++ waiting) with ([AssembleStiffness y] ++ uses ++ waiting). rewrite !served_app.
  set (t := served spectrum d s [AssembleStiffness y]). set (ts := assemble_stiffness _ d y). cbn [serve snd]. unfold K_entries.
  destruct (quiet_kept spectrum d uses Q t ts (length y * 3)) as [_ H]; [reflexivity|split; reflexivity|].
  apply (idle_kept spectrum d waiting W) in H. destruct H as [-> ->]. reflexivity.
Qed.
Print Assumptions C90_latest_assembly_script.

(** ... or the one of the first addDForce or addKToMatrix after the forces were computed, at the positions of that time. *)
Theorem C90_latest_assembly_solver :
  forall spectrum d s f moves first uses waiting,
    length f = length (current_x (base s)) -> current_x (base s) <> [] -> connectivity d <> [] ->
    Forall idle moves -> (match first with AddDForce _ _ _ | AddKToMatrix _ _ => True | _ => False end) ->
    Forall quiet uses -> Forall idle waiting ->
    let t := base (served spectrum d s (Simulation (AddForce f) :: moves)) in
    snd (serve spectrum d (served spectrum d s (Simulation (AddForce f) :: moves ++ Simulation first :: uses ++ waiting)) GetK) =
    Matrix_is (length (current_x t) * 3)
      (coeff (K (assemble_stiffness (before_update (material_law t) (young_modulus t) (poisson_ratio t)) d (current_x t)) (length (current_x t) * 3))).
Proof.
  intros spectrum d s f moves first uses waiting Lf Nx Nc Hm Hf Q W t.
  change (Simulation (AddForce f) :: moves ++ Simulation first :: uses ++ waiting) with ((Simulation (AddForce f) :: moves) ++ [Simulation first] ++ uses ++ waiting).
  rewrite !served_app. set (s1 := served spectrum d s (Simulation (AddForce f) :: moves)) in *.
  assert (U : K_is_up_to_date (base s1) = false).
  { unfold s1. change (served spectrum d s (Simulation (AddForce f) :: moves)) with (served spectrum d (fst (serve spectrum d s (Simulation (AddForce f)))) moves).
    assert (U0 : K_is_up_to_date (base (fst (serve spectrum d s (Simulation (AddForce f))))) = false).
    { cbn [serve step fst base K_is_up_to_date set_K update_material current_x]. rewrite Lf, Nat.eqb_refl.
      destruct (current_x (base s)); [contradiction|]. destruct (connectivity d); [contradiction|]. reflexivity. }
    revert U0. generalize (fst (serve spectrum d s (Simulation (AddForce f)))). clear - Hm. induction Hm as [|r rs Hr F IH]; intros s U0; [exact U0|].
    apply IH. destruct r as [a| |y| |]; try contradiction; cbn [serve fst]; try (destruct (eigenvalues_base spectrum s) as [-> _]); try exact U0.
    destruct a; try contradiction; cbn [step fst with_base base K_is_up_to_date set_K update_material current_x]; try exact U0. destruct (_ || _)%bool; [exact U0|reflexivity]. }
  set (s2 := served spectrum d s1 [Simulation first]).
  assert (E2 : s2 = assemble_stiffness_now d s1).
  { unfold s2, served. cbn [fold_left]. destruct first; try contradiction; cbn [serve fst]; unfold if_needed; rewrite U; reflexivity. }
  set (ts := assemble_stiffness _ d _). cbn [serve snd]. unfold K_entries.
  destruct (quiet_kept spectrum d uses Q s2 ts (length (current_x t) * 3)) as [_ H]; [rewrite E2; reflexivity|rewrite E2; split; reflexivity|].
  apply (idle_kept spectrum d waiting W) in H. destruct H as [-> ->]. reflexivity.
Qed.
Print Assumptions C90_latest_assembly_solver.

(** ** Translations and the condition number *)

(** For every history and at any positions, the translations are in the kernel of the matrix given. *)
Theorem C90_translations :
  forall spectrum d x l E nu m requests k,
    solid d -> distinct_nodes d -> field (length (positions d)) 3 x -> Forall (sized d) requests -> (k < 3)%nat ->
    exists n A, snd (serve spectrum d (served spectrum d (init d x l E nu m) requests) GetK) = Matrix_is n A /\
      n = (length (positions d) * 3)%nat /\
      forall i, Rsum (map (fun j => A i j * (if Nat.eqb (j mod 3) k then 1 else 0)) (seq 0 n)) = 0.
Proof.
  intros spectrum d x l E nu m requests k S ND Fx Z Hk. set (s := served _ _ _ _).
  assert (H : assembled_somewhere d s) by (apply somewhere_served; [exact Z|apply somewhere_init; exact Fx]).
  destruct H as (_ & m' & x' & Fx' & P & R). exists (k_rows s), (K_entries s). split; [reflexivity|]. split; [exact R|].
  intros i. unfold K_entries. rewrite P, R. exact (translations_in_kernel m' d x' k i S ND Hk).
Qed.
Print Assumptions C90_translations.

(** Refuted: cond() gives the condition number of the stiffness.  When the eigenvalues found are those of the matrix, 0 is
    always one of them, the stiffness has no condition number, and what is returned is either undefined (0 / 0) or not
    positive, for every mesh and every history; ... *)
Theorem C90_condition_number_refuted :
  forall spectrum d x l E nu m requests,
    solid d -> distinct_nodes d -> positions d <> [] -> field (length (positions d)) 3 x -> Forall (sized d) requests ->
    let s := served spectrum d (init d x l E nu m) requests in
    (forall n A, snd (serve spectrum d s GetK) = Matrix_is n A -> all_eigenvalues n A (spectrum n A)) ->
    exists values, snd (serve spectrum d s Eigenvalues) = Values values /\ In 0 values /\
      (forall kappa, ~ condition_number values kappa) /\
      (snd (serve spectrum d s Cond) = Undefined \/ exists r, snd (serve spectrum d s Cond) = Number r /\ r <= 0).
Proof.
  intros spectrum d x l E nu m requests S ND NE Fx Z s Right.
  assert (H : assembled_somewhere d s) by (apply somewhere_served; [exact Z|apply somewhere_init; exact Fx]).
  assert (C : coherent spectrum s) by apply coherent_served, coherent_init.
  destruct H as (_ & m' & x' & Fx' & P & R).
  assert (I0 : In 0 (p_eigenvalues (eigenvalues spectrum s))).
  { rewrite (eigenvalues_coherent spectrum s C). apply (Right (k_rows s) (K_entries s) eq_refl). unfold K_entries. rewrite P, R.
    exact (zero_eigenvalue m' d x' S ND NE). }
  exists (p_eigenvalues (eigenvalues spectrum s)). split; [reflexivity|]. split; [exact I0|]. split.
  - intros kappa (small & large & Is & _ & Ord & Nz & _). destruct (Ord 0 I0) as [B1 _]. rewrite Rabs_R0 in B1.
    pose proof (Rabs_pos_lt small Nz). lra.
  - cbn [serve snd]. pose proof (cond_with_zero _ I0) as Q. destruct (cond (p_eigenvalues (eigenvalues spectrum s))) as [| | |r| |]; try contradiction.
    + right. exists r. split; [reflexivity|exact Q].
    + left. reflexivity.
Qed.
Print Assumptions C90_condition_number_refuted.

(** ... and for a matrix with positive eigenvalues it would be the inverse of the condition number. *)
Theorem C90_inverse_refuted :
  forall l, l <> [] -> Forall (fun y => 0 < y) l ->
    exists kappa r, condition_number l kappa /\ cond l = Number r /\ r = / kappa /\ (r = kappa -> kappa = 1).
Proof.
  intros l NE F. destruct (cond_positive l NE F) as (kappa & r & C & Q & Rk). exists kappa, r. split; [exact C|]. split; [exact Q|]. split; [exact Rk|].
  destruct C as (small & large & _ & Il & Ord & Nz & ->). intros E. rewrite Rk in E.
  pose proof (Rabs_pos_lt small Nz) as Ps. destruct (Ord large Il) as [B1 _].
  assert (Pl : 0 < Rabs large) by lra.
  assert (Q2 : Rabs large * Rabs large = Rabs small * Rabs small).
  { assert (One : Rabs large / Rabs small * (Rabs large / Rabs small) = 1) by (rewrite <- E at 1; field; split; lra).
    replace (Rabs large * Rabs large) with (Rabs large / Rabs small * (Rabs large / Rabs small) * (Rabs small * Rabs small)) by (field; lra).
    rewrite One. ring. }
  assert (Rabs large = Rabs small) by nra. rewrite H. field. lra.
Qed.
Print Assumptions C90_inverse_refuted.

(** ** The positions of the assembly *)

Definition flat_tetrahedron : list (list R) := [[0; 0; 0]; [0; 0; 0]; [0; 0; 0]; [0; 0; 0]].
Definition first_entry (E : R) (x : list (list R)) : R :=
  coeff (K (assemble_stiffness (before_update SaintVenantKirchhoff E 0) unit_tetrahedron x) 12) 0 0.

Lemma first_entry_block E x : first_entry E x = entries (block (before_update SaintVenantKirchhoff E 0) unit_tetrahedron x [0; 1; 2; 3]%nat 0 0) 0 0.
Proof.
  set (v := [[1; 0; 0]; [0; 0; 0]; [0; 0; 0]; [0; 0; 0]]).
  assert (Fv : field 4 3 v) by (split; [reflexivity|repeat constructor]).
  pose proof (K_row (before_update SaintVenantKirchhoff E 0) unit_tetrahedron x 4 v 0 0 unit_tetrahedron_solid unit_tetrahedron_distinct eq_refl Fv ltac:(lia)) as Q.
  unfold first_entry. cbn -[K coeff assemble_stiffness block before_update] in Q. unfold sum3 in Q. cbn -[K coeff assemble_stiffness block before_update] in Q. lra.
Qed.

Lemma first_node : exists g, quad unit_tetrahedron [0; 1; 2; 3]%nat = [g] /\ weight g = / 6 /\ jacobian_determinant g = 1 /\
  dN_dx g = [[-1; -1; -1]; [1; 0; 0]; [0; 1; 0]; [0; 0; 1]].
Proof.
  eexists. split; [unfold quad; rewrite get_gauss_nodes_alt; change (gauss_nodes (kind unit_tetrahedron)) with (gauss_nodes Tetrahedron_Linear); cbn [gauss_nodes]; unfold Tetrahedron_Linear_gauss; cbn [map]; reflexivity|].
  unfold the_node. cbn [weight jacobian_determinant dN_dx]. split; [cbn; field|]. split.
  - cbn. match goal with |- Rabs ?a = 1 => replace a with 1 by ring end. apply Rabs_R1.
  - cbn. repeat match goal with |- _ :: _ = _ :: _ => apply f_equal2 | |- [] = [] => reflexivity end; field.
Qed.

Lemma first_entry_value E x F :
  of_entries (grad 4 (entries (gather x [0; 1; 2; 3]%nat)) (entries [[-1; -1; -1]; [1; 0; 0]; [0; 1; 0]; [0; 0; 1]])) = F ->
  first_entry E x = / 6 * (geometric (PK2_stress (before_update SaintVenantKirchhoff E 0) (det F) (cauchy_green F)) (entries [[-1; -1; -1]] 0) (entries [[-1; -1; -1]] 0) +
    material_block (before_update SaintVenantKirchhoff E 0) F [-1; -1; -1] [-1; -1; -1] 0 0).
Proof.
  intros GF. rewrite first_entry_block. rewrite block_spec by (cbn; lia).
  destruct first_node as (g & Q & W & J & D). rewrite Q. cbn [map Rsum fold_right].
  assert (Sg : sound 4 g). { split; rewrite D; [reflexivity|repeat constructor]. }
  destruct (gauss_block_spec (before_update SaintVenantKirchhoff E 0) (gather x [0; 1; 2; 3]%nat) g 4 0 0 eq_refl Sg ltac:(lia) ltac:(lia)) as [_ V].
  rewrite V by lia. rewrite D, W, J, GF. unfold delta. cbn [Nat.eqb nth]. unfold entries. cbn [nth]. ring.
Qed.

Lemma first_entry_rest E : first_entry E (positions unit_tetrahedron) = E / 3.
Proof.
  rewrite (first_entry_value E _ [[1; 0; 0]; [0; 1; 0]; [0; 0; 1]]).
  - assert (CG : cauchy_green [[1; 0; 0]; [0; 1; 0]; [0; 0; 1]] = [[1; 0; 0]; [0; 1; 0]; [0; 0; 1]]).
    { unfold cauchy_green, of_entries, sum3, entries. cbn. repeat match goal with |- _ :: _ = _ :: _ => apply f_equal2 | |- [] = [] => reflexivity end; ring. }
    unfold material_block. rewrite CG. unfold geometric, sum3, sum6, entries. cbn. unfold trace. cbn. field.
  - unfold grad, gather. cbn. repeat match goal with |- _ :: _ = _ :: _ => apply f_equal2 | |- [] = [] => reflexivity end; ring.
Qed.
Lemma first_entry_flat E : first_entry E flat_tetrahedron = - E / 4.
Proof.
  rewrite (first_entry_value E _ [[0; 0; 0]; [0; 0; 0]; [0; 0; 0]]).
  - assert (CG : cauchy_green [[0; 0; 0]; [0; 0; 0]; [0; 0; 0]] = [[0; 0; 0]; [0; 0; 0]; [0; 0; 0]]).
    { unfold cauchy_green, of_entries, sum3, entries. cbn. repeat match goal with |- _ :: _ = _ :: _ => apply f_equal2 | |- [] = [] => reflexivity end; ring. }
    unfold material_block. rewrite CG. unfold geometric, sum3, sum6, entries. cbn. unfold trace. cbn. field.
  - unfold grad, gather. cbn. repeat match goal with |- _ :: _ = _ :: _ => apply f_equal2 | |- [] = [] => reflexivity end; ring.
Qed.

(** Refuted: K() is the stiffness at the current positions with the current parameters.  The forces were computed there,
    no assembly followed, and the matrix given is still the one of init. *)
Theorem C90_current_stiffness_refuted :
  exists spectrum d x l E nu m requests E',
    solid d /\ distinct_nodes d /\ regular d /\ field (length (positions d)) 3 x /\ Forall (sized d) requests /\
    let s := served spectrum d (init d x l E nu m) requests in
    young_modulus (base s) = E' /\ parameters (base s) = before_update l E' nu /\ current_x (base s) = x /\
    exists n A, snd (serve spectrum d s GetK) = Matrix_is n A /\
      A 0%nat 0%nat <> coeff (K (assemble_stiffness (before_update l E' nu) d x) n) 0 0.
Proof.
  exists (fun _ _ => []), unit_tetrahedron, (positions unit_tetrahedron), SaintVenantKirchhoff, 3, 0, (before_update SaintVenantKirchhoff 1 0),
    [Simulation (SetParameters 6 0); Simulation (AddForce pulled)], 6.
  split; [exact unit_tetrahedron_solid|]. split; [exact unit_tetrahedron_distinct|]. split; [exact unit_tetrahedron_regular|].
  split; [apply unit_tetrahedron_solid|]. split; [repeat constructor|]. intros s. split; [reflexivity|]. split; [reflexivity|]. split; [reflexivity|].
  exists 12%nat, (coeff (K (assemble_stiffness (before_update SaintVenantKirchhoff 3 0) unit_tetrahedron (positions unit_tetrahedron)) 12)).
  split; [reflexivity|]. pose proof (first_entry_rest 3) as A3. pose proof (first_entry_rest 6) as A6. unfold first_entry in A3, A6. rewrite A3, A6. lra.
Qed.
Print Assumptions C90_current_stiffness_refuted.

(** Refuted: asking for the stiffness at some positions leaves the simulation as it was.  Until the forces are computed
    again, addKToMatrix adds, for every mesh and every history, the matrix at the positions given by the script; ... *)
Theorem C90_assembly_by_script_refuted :
  forall spectrum d s y uses kFact offset,
    Forall quiet uses ->
    snd (serve spectrum d (served spectrum d s (AssembleStiffness y :: uses)) (Simulation (AddKToMatrix kFact offset))) =
    Told (Added (addKToMatrix (assemble_stiffness (before_update (material_law (base s)) (young_modulus (base s)) (poisson_ratio (base s))) d y)
                 (length y * 3) kFact offset)).
Proof.
  intros spectrum d s y uses k o Q. change (AssembleStiffness y :: uses) with ([AssembleStiffness y] ++ uses). rewrite served_app.
  set (t := served spectrum d s [AssembleStiffness y]). set (ts := assemble_stiffness _ d y).
  destruct (quiet_kept spectrum d uses Q t ts (length y * 3)) as [U [P R]]; [reflexivity|split; reflexivity|].
  cbn [serve snd]. unfold if_needed. rewrite U, P, R. reflexivity.
Qed.
Print Assumptions C90_assembly_by_script_refuted.

(** ... which is another matrix, even though the stiffness of the current positions had not to be assembled again. *)
Theorem C90_simulation_disturbed_refuted :
  exists spectrum d x l E nu m y kFact,
    solid d /\ distinct_nodes d /\ regular d /\ field (length (positions d)) 3 x /\ sized d (AssembleStiffness y) /\
    let s := init d x l E nu m in
    exists before after_it, snd (serve spectrum d s (Simulation (AddKToMatrix kFact 0))) = Told (Added before) /\
      snd (serve spectrum d (fst (serve spectrum d s (AssembleStiffness y))) (Simulation (AddKToMatrix kFact 0))) = Told (Added after_it) /\
      current_x (base (fst (serve spectrum d s (AssembleStiffness y)))) = x /\
      coeff before 0 0 <> coeff after_it 0 0.
Proof.
  exists (fun _ _ => []), unit_tetrahedron, (positions unit_tetrahedron), SaintVenantKirchhoff, 12, 0, (before_update SaintVenantKirchhoff 1 0), flat_tetrahedron, 1.
  split; [exact unit_tetrahedron_solid|]. split; [exact unit_tetrahedron_distinct|]. split; [exact unit_tetrahedron_regular|].
  split; [apply unit_tetrahedron_solid|]. split; [split; [reflexivity|repeat constructor]|]. intros s.
  set (a1 := assemble_stiffness (before_update SaintVenantKirchhoff 12 0) unit_tetrahedron (positions unit_tetrahedron)).
  set (a2 := assemble_stiffness (before_update SaintVenantKirchhoff 12 0) unit_tetrahedron flat_tetrahedron).
  exists (addKToMatrix a1 12 1 0), (addKToMatrix a2 12 1 0). split; [reflexivity|]. split; [reflexivity|]. split; [reflexivity|].
  destruct (C56_matrix (before_update SaintVenantKirchhoff 12 0) unit_tetrahedron (positions unit_tetrahedron) 1 0 unit_tetrahedron_solid) as (_ & _ & Q1 & _).
  destruct (C56_matrix (before_update SaintVenantKirchhoff 12 0) unit_tetrahedron flat_tetrahedron 1 0 unit_tetrahedron_solid) as (_ & _ & Q2 & _).
  pose proof (Q1 0%nat 0%nat : coeff (addKToMatrix a1 12 1 0) 0 0 = - 1 * coeff (K a1 12) 0 0) as P1.
  pose proof (Q2 0%nat 0%nat : coeff (addKToMatrix a2 12 1 0) 0 0 = - 1 * coeff (K a2 12) 0 0) as P2.
  pose proof (first_entry_rest 12) as V1. pose proof (first_entry_flat 12) as V2. unfold first_entry in V1, V2. fold a1 in V1. fold a2 in V2.
  rewrite V1 in P1. rewrite V2 in P2. rewrite P1, P2. lra.
Qed.
Print Assumptions C90_simulation_disturbed_refuted.

(** ** Examples *)

(** A solver that finds the eigenvalues exists for the unit tetrahedron, after a move and an assembly: the hypotheses of
    C90_condition_number_refuted are met. *)
Example C90_example : exists spectrum,
  let requests := [Simulation (SetPositions pulled); Simulation (AddForce pulled); Simulation (AddKToMatrix 1 0); Eigenvalues; GetK] in
  let s := served spectrum unit_tetrahedron (init unit_tetrahedron (positions unit_tetrahedron) NeoHookean 1000 (/ 4) (before_update NeoHookean 1 0)) requests in
  (forall n A, snd (serve spectrum unit_tetrahedron s GetK) = Matrix_is n A -> all_eigenvalues n A (spectrum n A)) /\
  exists values, snd (serve spectrum unit_tetrahedron s Eigenvalues) = Values values /\ In 0 values.
Proof.
  set (ts := assemble_stiffness (before_update NeoHookean 1000 (/ 4)) unit_tetrahedron pulled).
  destruct (eigenvalues_listed 12 (coeff (K ts 12))) as (l & Hl). exists (fun _ _ => l). intros requests s.
  assert (G : snd (serve (fun _ _ => l) unit_tetrahedron s GetK) = Matrix_is 12 (coeff (K ts 12))) by reflexivity.
  assert (Right : forall n A, snd (serve (fun _ _ => l) unit_tetrahedron s GetK) = Matrix_is n A -> all_eigenvalues n A l).
  { intros n A H. rewrite G in H. injection H as <- <-. exact Hl. }
  split; [exact Right|].
  destruct (C90_condition_number_refuted (fun _ _ => l) unit_tetrahedron (positions unit_tetrahedron) NeoHookean 1000 (/ 4) (before_update NeoHookean 1 0) requests)
    as (values & V & I0 & _); [exact unit_tetrahedron_solid|exact unit_tetrahedron_distinct|discriminate|apply unit_tetrahedron_solid| |exact Right|].
  - repeat constructor.
  - exists values. split; assumption.
Qed.

(** The hypotheses of C90_latest_assembly_solver are met. *)
Example C90_latest_example : forall spectrum,
  snd (serve spectrum unit_tetrahedron (served spectrum unit_tetrahedron
        (init unit_tetrahedron (positions unit_tetrahedron) NeoHookean 1000 (/ 4) (before_update NeoHookean 1 0))
        [Simulation (AddForce pulled); Simulation (SetPositions pulled); Eigenvalues; Simulation (AddDForce 1 [] []); Simulation (AddKToMatrix 1 0);
         Simulation (SetParameters 1 0); Simulation (AddForce pulled); Cond]) GetK) =
  Matrix_is 12 (coeff (K (assemble_stiffness (before_update NeoHookean 1000 (/ 4)) unit_tetrahedron pulled) 12)).
Proof.
  intros spectrum.
  refine (C90_latest_assembly_solver spectrum unit_tetrahedron (init unit_tetrahedron (positions unit_tetrahedron) NeoHookean 1000 (/ 4) (before_update NeoHookean 1 0))
    pulled [Simulation (SetPositions pulled); Eigenvalues] (AddDForce 1 [] []) [Simulation (AddKToMatrix 1 0); Simulation (SetParameters 1 0)]
    [Simulation (AddForce pulled); Cond] eq_refl _ _ _ I _ _); try discriminate; repeat constructor.
Qed.
Example C90_inverse_example : exists r, cond [1; 4; 2] = Number r /\ r = / 4.
Proof.
  destruct (C90_inverse_refuted [1; 4; 2]) as (kappa & r & _ & _ & _).
  - discriminate.
  - repeat constructor; lra.
  - exists (/ 4). split; [|reflexivity]. cbn [cond]. unfold maxCoeff, minCoeff. cbn [fold_left]. rewrite (Rmax_right 1 4), (Rmax_left 4 2), (Rmin_left 1 4), (Rmin_left 1 2) by lra.
    destruct (Req_EM_T 4 0); [lra|]. f_equal. field.
Qed.
