(** C59, C60, C70, C71: concrete cases, and what does not hold. *)

From Coq Require Import ZArith Reals Lra Lia.
From Coquelicot Require Import Coquelicot.
From Coq Require Import List Arith Bool.
From Flocq Require Import Core.Raux.
From Verif Require Import GridGeoModel ShapeModel ShapeSpec ShapeProofs ShapeFieldProofs LinAlg LinAlgProofs RectModel RectProofs BarycentricModel MappingSpec MappingProofs TensorModel TensorSpec
  MaterialModel MaterialSpec MaterialProofs MaterialProperties SparseModel SparseProofs Sums TractionModel TractionProofs HyperModel HyperSpec HyperProofs HyperProofs2 HyperProofs3 HyperProofs4 HyperProperties
  CorotModel CorotSpec CorotProofs CorotProofs2 CorotProofs3 CorotProofs4 CorotProperties.
Import ListNotations.
Open Scope R_scope.

(** A tetrahedron turned by a quarter turn around the third axis, and the cube [-1, 1]^3. *)
Definition turned_tetrahedron : mesh :=
  {| type := TetrahedronElastic; x0 := [[0; 0; 0]; [0; 1; 0]; [-1; 0; 0]; [0; 0; 1]]; elements := [[0; 1; 2; 3]%nat] |}.
Definition cube_mesh : mesh :=
  {| type := HexahedronElastic true;
     x0 := [[-1; -1; -1]; [1; -1; -1]; [1; 1; -1]; [-1; 1; -1]; [-1; -1; 1]; [1; -1; 1]; [1; 1; 1]; [-1; 1; 1]];
     elements := [[0; 1; 2; 3; 4; 5; 6; 7]%nat] |}.
Definition quarter_turn : list (list R) := [[0; -1; 0]; [1; 0; 0]; [0; 0; 1]].

Lemma quarter_turn_rotation : rotation quarter_turn.
Proof.
  split; [split; [reflexivity|repeat constructor]|]. split.
  - unfold cauchy_green, of_entries, sum3, entries, quarter_turn, Id3. cbn. list3; ring.
  - unfold det, quarter_turn. cbn. ring.
Qed.

Ltac valid_tac := split; [discriminate|]; split; [split; [reflexivity|repeat constructor]|];
  constructor; [|constructor]; split; [reflexivity|]; split; [repeat constructor|].
Lemma turned_tetrahedron_valid : valid_mesh turned_tetrahedron.
Proof.
  valid_tac. cbn [type turned_tetrahedron integration_points]. unfold gauss_nodes, Tetrahedron_Linear_gauss. cbn [firstn].
  constructor; [|constructor]. match goal with |- det ?J <> 0 => assert (H : det J = 1) end; [unfold gather; cbn; ring|]. rewrite H. lra.
Qed.
Lemma cube_mesh_valid : valid_mesh cube_mesh.
Proof.
  valid_tac. cbn [type cube_mesh integration_points].
  constructor; [|constructor]. match goal with |- det ?J <> 0 => assert (H : det J = 1) end; [unfold gather; cbn; field|]. rewrite H. lra.
Qed.

(** Histories with several initialisations, evaluations, and changes of the parameters. *)
Example C59_example : forall f, field 8 3 f ->
  snd (addForce cube_mesh (after cube_mesh (fresh true 1000 (/ 3)) [Reinit; SetData true 2000 (/ 4); AddForce (rigid quarter_turn [0; 0; 5] (x0 cube_mesh)) f; Reinit; GetK])
         (rigid quarter_turn [1; 2; 3] (x0 cube_mesh)) f) = Some f.
Proof.
  intros f Ff. apply C59_rigid_motion; [exact cube_mesh_valid| |exact quarter_turn_rotation|reflexivity|exact Ff].
  repeat constructor.
Qed.
Example C60_example : exists ts, addKToMatrix turned_tetrahedron (after turned_tetrahedron (fresh true 1000 (/ 3)) ([] ++ Reinit :: [AddForce (x0 turned_tetrahedron) (x0 turned_tetrahedron)])) 2 6 = Some ts /\
  exists df', addDForce turned_tetrahedron (after turned_tetrahedron (fresh true 1000 (/ 3)) ([] ++ Reinit :: [AddForce (x0 turned_tetrahedron) (x0 turned_tetrahedron)])) 2 (x0 turned_tetrahedron) (x0 turned_tetrahedron) = Some df' /\
    nth 1 (nth 1 df' []) 0 = 1 + Rsum (map (fun j => coeff ts (6 + 4)%nat (6 + j)%nat * nth j (concat (x0 turned_tetrahedron)) 0) (seq 0 12)).
Proof.
  destruct (C60_matrix_and_increment_partial turned_tetrahedron true 1000 (/ 3) [] [AddForce (x0 turned_tetrahedron) (x0 turned_tetrahedron)] 2 6 turned_tetrahedron_valid) as (ts & A & _ & _ & D).
  exists ts. split; [exact A|].
  destruct (D (x0 turned_tetrahedron) (x0 turned_tetrahedron)) as (df' & E & _ & V); [apply turned_tetrahedron_valid|apply turned_tetrahedron_valid|].
  exists df'. split; [exact E|]. exact (V 1%nat 1%nat ltac:(lia)).
Qed.

(** ** Quadrature nodes and frames of these meshes *)

Lemma turned_gauss : gauss_nodes_of TetrahedronElastic (gather (x0 turned_tetrahedron) [0; 1; 2; 3]%nat) =
  [ {| weight := 1 / 6; jacobian_determinant := 1; dN_dx := [[1; -1; -1]; [0; 1; 0]; [-1; 0; 0]; [0; 0; 1]] |} ].
Proof.
  unfold gauss_nodes_of. cbn [integration_points]. unfold gauss_nodes, Tetrahedron_Linear_gauss. cbn [firstn map fst snd].
  apply f_equal2; [|reflexivity].
  match goal with |- {| weight := ?w; jacobian_determinant := det ?J; dN_dx := _ |} = _ => assert (HJ : J = quarter_turn) end.
  { unfold gather, quarter_turn. cbn. list3; ring. }
  rewrite HJ. clear HJ.
  assert (HD : det quarter_turn = 1) by (unfold det, quarter_turn; cbn; ring).
  assert (HI : inverse quarter_turn = [[0; 1; 0]; [-1; 0; 0]; [0; 0; 1]]) by (unfold inverse; rewrite HD; unfold quarter_turn; cbn; list3; field).
  rewrite HD, HI.
  match goal with |- {| weight := ?w; jacobian_determinant := _; dN_dx := ?a |} = {| weight := ?w'; jacobian_determinant := _; dN_dx := ?b |} =>
    assert (A : a = b); [cbn; list3; ring|assert (B : w = w') by (reflexivity || field); rewrite A; first [reflexivity | rewrite B; reflexivity]] end.
Qed.

Lemma turned_frame : frame TetrahedronElastic (gather (x0 turned_tetrahedron) [0; 1; 2; 3]%nat) = quarter_turn.
Proof.
  cbn [frame]. unfold tetrahedron_frame, gather. cbn [x0 turned_tetrahedron map nth].
  assert (A : vminus [0; 1; 0] [0; 0; 0] = [0; 1; 0]) by (unfold vcross; cbn; list3; ring).
  assert (B : vminus [-1; 0; 0] [0; 0; 0] = [-1; 0; 0]) by (unfold vcross; cbn; list3; ring).
  rewrite A, B. rewrite (normalized_unit 0 1 0), (normalized_unit (-1) 0 0) by ring.
  assert (C : vcross [0; 1; 0] [-1; 0; 0] = [0; 0; 1]) by (unfold vcross; cbn; list3; ring). rewrite C. rewrite (normalized_unit 0 0 1) by ring.
  assert (D : vcross [0; 0; 1] [0; 1; 0] = [-1; 0; 0]) by (unfold vcross; cbn; list3; ring). rewrite D. rewrite (normalized_unit (-1) 0 0) by ring. reflexivity.
Qed.

(** ** C70: with the option on, the stiffness of an element whose rest frame is not the world frame *)

(** The stiffness is computed from the derivatives of the shape functions in the world frame, but it is applied to
    displacements expressed in the frame of the element: stretching the turned tetrahedron along its first edge meets the
    shear modulus only. *)
Theorem C70_corotated_refuted :
  exists m E nu dx df df', valid_mesh m /\ field (length (x0 m)) 3 dx /\ field (length (x0 m)) 3 df /\
    addDForce m (after m (fresh true E nu) [Reinit; AddForce (x0 m) df]) 1 dx df = Some df' /\
    power df' dx <> power df dx - linear_elastic_work m E nu dx dx.
Proof.
  set (m := turned_tetrahedron). set (dx := [[0; 0; 0]; [0; 1; 0]; [0; 0; 0]; [0; 0; 0]]). set (df := [[0; 0; 0]; [0; 0; 0]; [0; 0; 0]; [0; 0; 0]]).
  assert (Fx : field 4 3 dx) by (split; [reflexivity|repeat constructor]). assert (Ff : field 4 3 df) by (split; [reflexivity|repeat constructor]).
  pose proof turned_tetrahedron_valid as VM. fold m in VM.
  set (s := after m (fresh true 1 0) [Reinit; AddForce (x0 m) df]).
  assert (O : once m 1 0 s) by (apply (once_step m 1 0 (reinit m (fresh true 1 0)) (AddForce (x0 m) df) VM I), once_reinit; exact VM).
  destruct O as [IN Q].
  assert (Q0 : quad_of s 0 = [ {| weight := 1 / 6; jacobian_determinant := 1; dN_dx := [[1; -1; -1]; [0; 1; 0]; [-1; 0; 0]; [0; 0; 1]] |} ]) by (rewrite (Q 0%nat) by (cbn; lia); exact turned_gauss).
  destruct (dforce_work m s 1 0 1 dx df dx 4 VM eq_refl IN Fx Ff Fx) as (df' & A & _ & W).
  exists m, 1, 0, dx, df, df'. split; [exact VM|]. split; [exact Fx|]. split; [exact Ff|]. split; [exact A|]. rewrite W.
  assert (WS : works m s 1 0 (fun e => uincr (R1_of s e) dx (row_of_element m e)) (fun e => uincr (R1_of s e) dx (row_of_element m e)) = / 12).
  { unfold works. cbn [elements m turned_tetrahedron length seq map Rsum fold_right].
    rewrite Q0. change (row_of_element m 0) with [0; 1; 2; 3]%nat. cbn [map Rsum fold_right jacobian_determinant weight dN_dx].
    assert (R : R1_of s 0 = quarter_turn) by (exact turned_frame). rewrite R.
    unfold form, lame_l, lame_mu, grad, uincr, sum3, entries, dx, quarter_turn, nn. cbn. field. }
  assert (WL : linear_elastic_work m 1 0 dx dx = / 6).
  { assert (EQ : linear_elastic_work m 1 0 dx dx = works m s 1 0 (fun e j k => entries dx (nth j (row_of_element m e) 0%nat) k) (fun e j k => entries dx (nth j (row_of_element m e) 0%nat) k)).
    { symmetry. apply works_linear; [exact VM|exact Q|reflexivity|reflexivity]. }
    rewrite EQ. unfold works. cbn [elements m turned_tetrahedron length seq map Rsum fold_right].
    rewrite Q0. change (row_of_element m 0) with [0; 1; 2; 3]%nat. cbn [map Rsum fold_right jacobian_determinant weight dN_dx].
    unfold form, lame_l, lame_mu, grad, sum3, entries, dx, nn. cbn. field. }
  rewrite WS, WL. lra.
Qed.
Print Assumptions C70_corotated_refuted.

(** ** C71: switching the option off leaves the frames of the rest positions in place *)

(** At rest, with the option off, a force appears; a new force field with the option off has none. *)
Theorem C71_switch_off_refuted :
  exists m E nu f f' fnew, valid_mesh m /\ field (length (x0 m)) 3 f /\
    snd (addForce m (after m (fresh true E nu) [Reinit; SetData false E nu; Reinit]) (x0 m) f) = Some f' /\
    snd (addForce m (after m (fresh false E nu) [Reinit]) (x0 m) f) = Some fnew /\
    power fnew (x0 m) = power f (x0 m) /\ power f' (x0 m) <> power f (x0 m).
Proof.
  set (m := turned_tetrahedron). set (f := [[0; 0; 0]; [0; 0; 0]; [0; 0; 0]; [0; 0; 0]]).
  assert (Ff : field 4 3 f) by (split; [reflexivity|repeat constructor]).
  pose proof turned_tetrahedron_valid as VM. fold m in VM. assert (FX : field 4 3 (x0 m)) by apply VM.
  set (s := after m (fresh true 1 0) [Reinit; SetData false 1 0; Reinit]).
  assert (IN : initialised m s 1 0).
  { set (s2 := after m (fresh true 1 0) [Reinit; SetData false 1 0]).
    change s with (reinit m s2). assert (RE : reached m s2) by (apply after_reached; [exact VM|apply fresh_reached]).
    exact (reinit_initialised m s2 VM RE). }
  assert (Q : quad_of s 0 = [ {| weight := 1 / 6; jacobian_determinant := 1; dN_dx := [[1; -1; -1]; [0; 1; 0]; [-1; 0; 0]; [0; 0; 1]] |} ]).
  { set (s2 := after m (fresh true 1 0) [Reinit; SetData false 1 0]). change (quad_of s 0) with (quad_of (reinit m s2) 0).
    rewrite reinit_quad by (exact VM || (cbn; lia)). exact turned_gauss. }
  destruct (force_work m s 1 0 (x0 m) f (x0 m) 4 VM eq_refl IN FX Ff FX) as (f' & A & _ & W).
  destruct (C70_without_corotation m 1 0 [] (x0 m) f VM (Forall_nil _) FX Ff) as (fn & B & _ & WN).
  exists m, 1, 0, f, f', fn. split; [exact VM|]. split; [exact Ff|]. split; [exact A|]. split; [exact B|]. split.
  - rewrite (WN (x0 m) FX).
    assert (Z : linear_elastic_work m 1 0 (displacement m (x0 m)) (x0 m) = 0); [|rewrite Z; ring].
    assert (EQ : linear_elastic_work m 1 0 (displacement m (x0 m)) (x0 m) = works m (after m (fresh false 1 0) [Reinit]) 1 0 (fun e j k => entries (displacement m (x0 m)) (nth j (row_of_element m e) 0%nat) k) (fun e j k => entries (x0 m) (nth j (row_of_element m e) 0%nat) k)).
    { symmetry. apply works_linear; [exact VM|apply (once_reinit m false 1 0 VM)|reflexivity|reflexivity]. }
    rewrite EQ. unfold works. cbn [elements m turned_tetrahedron length seq map Rsum fold_right].
    assert (Q0 : quad_of (after m (fresh false 1 0) [Reinit]) 0 = [ {| weight := 1 / 6; jacobian_determinant := 1; dN_dx := [[1; -1; -1]; [0; 1; 0]; [-1; 0; 0]; [0; 0; 1]] |} ]) by (rewrite <- turned_gauss; apply (proj2 (once_reinit m false 1 0 VM) 0%nat); cbn; lia).
    rewrite Q0. change (row_of_element m 0) with [0; 1; 2; 3]%nat. cbn [map Rsum fold_right jacobian_determinant weight dN_dx].
    unfold form, lame_l, lame_mu, grad, sum3, entries, displacement, m, nn. cbn. field.
  - rewrite W.
    assert (WS : works m s 1 0 (fun e => udisp (R0_of s e) (nth e (rotations_after m s (x0 m)) []) (x0 m) (x0 m) (row_of_element m e)) (fun e => uincr (nth e (rotations_after m s (x0 m)) []) (x0 m) (row_of_element m e)) = / 3).
    { unfold works. cbn [elements m turned_tetrahedron length seq map Rsum fold_right]. rewrite Q.
      change (row_of_element m 0) with [0; 1; 2; 3]%nat. cbn [map Rsum fold_right jacobian_determinant weight dN_dx].
      assert (R0 : R0_of s 0 = quarter_turn) by (exact turned_frame). assert (R1 : nth 0 (rotations_after m s (x0 m)) [] = Id3) by reflexivity.
      rewrite R0, R1. unfold form, lame_l, lame_mu, grad, udisp, uincr, sum3, entries, quarter_turn, Id3, m, nn. cbn. field. }
    rewrite WS. lra.
Qed.
Print Assumptions C71_switch_off_refuted.

(** ** C60: the matrix returned by K() *)

Definition cube_gauss : gauss_node :=
  {| weight := 8; jacobian_determinant := 1;
     dN_dx := [[-/8; -/8; -/8]; [/8; -/8; -/8]; [/8; /8; -/8]; [-/8; /8; -/8]; [-/8; -/8; /8]; [/8; -/8; /8]; [/8; /8; /8]; [-/8; /8; /8]] |}.
Lemma cube_gauss_nodes : gauss_nodes_of (HexahedronElastic true) (gather (x0 cube_mesh) [0; 1; 2; 3; 4; 5; 6; 7]%nat) = [cube_gauss].
Proof.
  unfold gauss_nodes_of. cbn [integration_points map fst snd]. apply f_equal2; [|reflexivity].
  match goal with |- {| weight := ?w; jacobian_determinant := det ?J; dN_dx := _ |} = _ => assert (HJ : J = Id3) end.
  { unfold gather, Id3. cbn. list3; field. }
  rewrite HJ. clear HJ.
  assert (HD : det Id3 = 1) by (unfold det, Id3; cbn; ring). assert (HI : inverse Id3 = Id3) by (unfold inverse; rewrite HD; unfold Id3; cbn; list3; field).
  rewrite HD, HI. unfold cube_gauss.
  match goal with |- {| weight := _; jacobian_determinant := _; dN_dx := ?a |} = {| weight := _; jacobian_determinant := _; dN_dx := ?b |} =>
    assert (A : a = b); [unfold Id3; cbn; list3; field|rewrite A; reflexivity] end.
Qed.
Lemma cube_frame : frame (HexahedronElastic true) (gather (x0 cube_mesh) [0; 1; 2; 3; 4; 5; 6; 7]%nat) = Id3.
Proof.
  cbn [frame]. unfold hexahedron_frame.
  assert (W : forall a b c, world_coordinates 3 Hexahedron_Linear (gather (x0 cube_mesh) [0; 1; 2; 3; 4; 5; 6; 7]%nat) [a; b; c] = [a; b; c]) by (intros a b c; unfold gather; cbn; list3; field).
  cbv zeta. cbn [nth]. rewrite !W.
  assert (A : vminus [1; 0; 0] [0; 0; 0] = [1; 0; 0]) by (cbn; list3; ring).
  assert (B : vminus [0; 1; 0] [0; 0; 0] = [0; 1; 0]) by (cbn; list3; ring).
  rewrite A, B. rewrite (normalized_unit 1 0 0), (normalized_unit 0 1 0) by ring.
  assert (C : vcross [1; 0; 0] [0; 1; 0] = [0; 0; 1]) by (unfold vcross; cbn; list3; ring). rewrite C. rewrite (normalized_unit 0 0 1) by ring.
  assert (D : vcross [0; 0; 1] [1; 0; 0] = [0; 1; 0]) by (unfold vcross; cbn; list3; ring). rewrite D. rewrite (normalized_unit 0 1 0) by ring. reflexivity.
Qed.

(** An entry of the matrix of the cube. *)
Lemma cube_coeff s E nu k ts i j a b : initialised cube_mesh s E nu -> addKToMatrix cube_mesh s k 0 = Some ts -> (i < 8)%nat -> (j < 8)%nat -> (a < 3)%nat -> (b < 3)%nat ->
  coeff ts (i * 3 + a) (j * 3 + b) = tblock cube_mesh s E nu k 0 i j a b.
Proof.
  intros IN H Hi Hj Ha Hb. destruct (addKToMatrix_spec cube_mesh s E nu k 0 cube_mesh_valid IN) as (ts' & H' & _ & T). rewrite H in H'. injection H' as <-.
  rewrite coeff_tsum, T. change (length (elements cube_mesh)) with 1%nat. cbn [seq map Rsum fold_right]. rewrite Rplus_0_r. change (nn cube_mesh) with 8%nat.
  change (row_of_element cube_mesh 0) with (seq 0 8).
  rewrite (Rsum_ext _ _ (fun i' => if Nat.eqb i i' then Rsum (map (fun j' => if Nat.eqb j j' then tblock cube_mesh s E nu k 0 i' j' a b else 0) (seq 0 8)) else 0)).
  - rewrite (Rsum_delta (fun i' => Rsum (map (fun j' => if Nat.eqb j j' then tblock cube_mesh s E nu k 0 i' j' a b else 0) (seq 0 8)))) by exact Hi.
    rewrite (Rsum_delta (fun j' => tblock cube_mesh s E nu k 0 i j' a b)) by exact Hj. reflexivity.
  - intros i' Hi'. apply in_seq in Hi'.
    rewrite (Rsum_ext _ _ (fun j' => if Nat.eqb i i' then (if Nat.eqb j j' then tblock cube_mesh s E nu k 0 i' j' a b else 0) else 0)).
    + destruct (Nat.eqb i i'); [reflexivity|]. apply Rsum_zero. reflexivity.
    + intros j' Hj'. apply in_seq in Hj'. rewrite !seq_nth by lia.
      transitivity (sum3 (fun a' => sum3 (fun b' => tblock cube_mesh s E nu k 0 i' j' a' b' * (if (Nat.eqb i i' && Nat.eqb a' a && (Nat.eqb j j' && Nat.eqb b' b))%bool then 1 else 0)))).
      * apply sum3_ext. intros a' Ha'. apply sum3_ext. intros b' Hb'. f_equal.
        replace (Nat.eqb (0 + (0 + i') * 3 + a') (i * 3 + a)) with (Nat.eqb i i' && Nat.eqb a' a)%bool;
          [replace (Nat.eqb (0 + (0 + j') * 3 + b') (j * 3 + b)) with (Nat.eqb j j' && Nat.eqb b' b)%bool; [reflexivity|]|];
          repeat match goal with |- context [Nat.eqb ?x ?y] => destruct (Nat.eqb_spec x y) end; cbn [andb]; reflexivity || lia.
      * destruct (Nat.eqb i i'), (Nat.eqb j j'); cbn [andb]; unfold sum3; destruct a as [|[|[|]]], b as [|[|[|]]]; try lia; cbn [Nat.eqb andb]; ring.
Qed.

Definition cube_state (c : bool) : state := after cube_mesh (fresh c 1 0) [Reinit].
Lemma cube_once c : once cube_mesh 1 0 (cube_state c).
Proof. apply once_reinit. exact cube_mesh_valid. Qed.
Lemma cube_quad c : quad_of (cube_state c) 0 = [cube_gauss].
Proof. rewrite <- cube_gauss_nodes. apply (proj2 (cube_once c) 0%nat). cbn. lia. Qed.
Lemma cube_blk i j a b : blk 1 0 [cube_gauss] i j a b = 4 * (entries (dN_dx cube_gauss) i b * entries (dN_dx cube_gauss) j a + delta a b * sum3 (fun k => entries (dN_dx cube_gauss) i k * entries (dN_dx cube_gauss) j k)).
Proof. unfold blk, law_block, lame_l, lame_mu. cbn [map Rsum fold_right jacobian_determinant weight cube_gauss]. field. Qed.

(** The entries of K() of the cube. *)
Lemma cube_K c : snd (K cube_mesh (cube_state c)) =
  flat_map (fun i => add_block (nth i (seq 0 8) 0%nat * 3) (nth i (seq 0 8) 0%nat * 3) (rotated Id3 (block3 (element_stiffness (hooke 1 0) 8 [cube_gauss]) i i) (-1))) (seq 0 8) ++
  flat_map (fun i => flat_map (fun j => add_block (nth i (seq 0 8) 0%nat * 3) (nth j (seq 0 8) 0%nat * 3) (rotated Id3 (block3 (element_stiffness (hooke 1 0) 8 [cube_gauss]) i j) (-1))) (seq (i + 1) (8 - (i + 1)))) (seq 0 8).
Proof.
  set (s := cube_state c).
  assert (IN : initialised cube_mesh s 1 0) by apply cube_once.
  assert (U : K_is_up_to_date s = false) by (unfold s, cube_state; destruct c; reflexivity).
  assert (R : p_current_rotation s = [Id3]) by (unfold s, cube_state; destruct c; reflexivity).
  assert (S : p_stiffness_matrices s = [element_stiffness (hooke 1 0) 8 [cube_gauss]]).
  { destruct IN as (Lq & Ek & _). rewrite Ek. pose proof (cube_quad c) as Q. fold s in Q. unfold quad_of in Q.
    destruct (p_quadrature_nodes s) as [|q [|]]; try discriminate. cbn [nth] in Q. rewrite Q. reflexivity. }
  unfold K. rewrite U, R, S. cbn [snd cube_mesh elements combine map2 concat]. rewrite app_nil_r. reflexivity.
Qed.

(** The matrix K() is not the one added to the system: below the diagonal it has nothing; above it, it has other blocks
    of the element matrices. *)
Theorem C60_K_refuted :
  exists m c E nu ts, valid_mesh m /\ let s := after m (fresh c E nu) [Reinit] in
    addKToMatrix m s 1 0 = Some ts /\
    (exists i j, (j < i)%nat /\ coeff (snd (K m s)) i j <> coeff ts i j) /\ (exists i j, (i < j)%nat /\ coeff (snd (K m s)) i j <> coeff ts i j).
Proof.
  destruct (addKToMatrix_spec cube_mesh (cube_state false) 1 0 1 0 cube_mesh_valid (proj1 (cube_once false))) as (ts & H & _).
  exists cube_mesh, false, 1, 0, ts. split; [exact cube_mesh_valid|]. cbv zeta. fold (cube_state false). split; [exact H|].
  assert (TS : forall i j a b, (i < 8)%nat -> (j < 8)%nat -> (a < 3)%nat -> (b < 3)%nat -> coeff ts (i * 3 + a) (j * 3 + b) = - blk 1 0 [cube_gauss] i j a b).
  { intros i j a b Hi Hj Ha Hb. rewrite (cube_coeff (cube_state false) 1 0 1 ts i j a b (proj1 (cube_once false)) H Hi Hj Ha Hb). unfold tblock. rewrite cube_quad.
    change (R1_of (cube_state false) 0) with Id3. unfold sum3, Id3, entries at 1 2 3 4 5 6 7 8 9 10 11 12 13 14 15 16 17 18. destruct a as [|[|[|]]], b as [|[|[|]]]; try lia; cbn [nth]; ring. }
  split.
  - exists (1 * 3 + 1)%nat, (0 * 3 + 1)%nat. split; [lia|]. rewrite TS by lia.
    assert (Z : coeff (snd (K cube_mesh (cube_state false))) (1 * 3 + 1) (0 * 3 + 1) = 0).
    { rewrite coeff_tsum, cube_K, tsum_app, !tsum_flat_map.
      assert (B : forall p q k, (p <= q)%nat -> (q < 8)%nat -> tsum (add_block (nth p (seq 0 8) 0%nat * 3) (nth q (seq 0 8) 0%nat * 3) k) (fun a b => if (Nat.eqb a (1 * 3 + 1) && Nat.eqb b (0 * 3 + 1))%bool then 1 else 0) = 0).
      { intros p q k Hp Hq. rewrite tsum_add_block, !seq_nth by lia. transitivity (sum3 (fun a => sum3 (fun b => 0))); [|unfold sum3; ring].
        apply sum3_ext. intros a Ha. apply sum3_ext. intros b Hb.
        destruct (Nat.eqb_spec ((0 + p) * 3 + a) (1 * 3 + 1)), (Nat.eqb_spec ((0 + q) * 3 + b) (0 * 3 + 1)); cbn [andb]; try ring. lia. }
      rewrite !Rsum_zero; [ring| |].
      - intros p Hp. apply in_seq in Hp. rewrite tsum_flat_map. apply Rsum_zero. intros q Hq. apply in_seq in Hq. apply B; lia.
      - intros p Hp. apply in_seq in Hp. apply B; lia. }
    rewrite Z, cube_blk. unfold sum3, delta, entries, cube_gauss. cbn. lra.
  - exists (0 * 3 + 0)%nat, (1 * 3 + 0)%nat. split; [lia|]. rewrite TS by lia.
    assert (Z : coeff (snd (K cube_mesh (cube_state false))) (0 * 3 + 0) (1 * 3 + 0) = - / 16).
    { rewrite coeff_tsum, cube_K, tsum_app, !tsum_flat_map.
      assert (B : forall p q k, (p < 8)%nat -> (q < 8)%nat -> tsum (add_block (nth p (seq 0 8) 0%nat * 3) (nth q (seq 0 8) 0%nat * 3) k) (fun a b => if (Nat.eqb a (0 * 3 + 0) && Nat.eqb b (1 * 3 + 0))%bool then 1 else 0) =
         if (Nat.eqb p 0 && Nat.eqb q 1)%bool then entries k 0 0 else 0).
      { intros p q k Hp Hq. rewrite tsum_add_block, !seq_nth by lia.
        transitivity (sum3 (fun a => sum3 (fun b => if (Nat.eqb p 0 && Nat.eqb q 1 && (Nat.eqb a 0 && Nat.eqb b 0))%bool then entries k a b else 0))).
        - apply sum3_ext. intros a Ha. apply sum3_ext. intros b Hb.
          replace (Nat.eqb ((0 + p) * 3 + a) (0 * 3 + 0)) with (Nat.eqb p 0 && Nat.eqb a 0)%bool;
          [replace (Nat.eqb ((0 + q) * 3 + b) (1 * 3 + 0)) with (Nat.eqb q 1 && Nat.eqb b 0)%bool|];
          repeat match goal with |- context [Nat.eqb ?x ?y] => destruct (Nat.eqb_spec x y) end; cbn [andb]; ring || reflexivity || lia.
        - destruct (Nat.eqb p 0), (Nat.eqb q 1); cbn [andb]; unfold sum3; cbn [Nat.eqb andb]; ring. }
      rewrite (Rsum_zero _ _ (seq 0 8)).
      - rewrite (Rsum_ext _ _ (fun p => if Nat.eqb 0 p then - / 16 else 0)).
        + rewrite (Rsum_delta (fun p => - / 16)) by lia. ring.
        + intros p Hp. apply in_seq in Hp. rewrite tsum_flat_map. destruct (Nat.eqb_spec 0 p) as [<- |Hne].
          * rewrite (Rsum_ext _ _ (fun q => if Nat.eqb 1 q then - / 16 else 0)).
            -- rewrite (Rsum_delta_nodup (fun q => - / 16)); [reflexivity|apply seq_NoDup|apply in_seq; lia].
            -- intros q Hq. apply in_seq in Hq. rewrite B by lia. rewrite (Nat.eqb_sym q 1). rewrite (Nat.eqb_refl 0). cbn [andb]. destruct (Nat.eqb_spec 1 q) as [<- |Hq1].
               ++ rewrite rotated_entries by (apply Id3_matrix || apply block3_matrix || lia).
                  assert (BE : forall a b, (a < 3)%nat -> (b < 3)%nat -> entries (block3 (element_stiffness (hooke 1 0) 8 [cube_gauss]) 0 1) a b = e (element_stiffness (hooke 1 0) 8 [cube_gauss]) a (1 + b)) by (intros; rewrite block3_entries by assumption; reflexivity).
                  assert (B00 : entries (block3 (element_stiffness (hooke 1 0) 8 [cube_gauss]) 0 1) 0 0 = / 16).
                  { rewrite BE by lia. change (e (element_stiffness (hooke 1 0) 8 [cube_gauss]) (0 * 3 + 0) (0 * 3 + 1) = / 16).
                    rewrite (element_stiffness_entries 1 0 [cube_gauss] 8) by (lia || (constructor; [split; [reflexivity|repeat constructor]|constructor])).
                    cbn [Nat.leb]. rewrite cube_blk. unfold sum3, delta, entries, cube_gauss. cbn. field. }
                  unfold sum3. rewrite B00. unfold entries at 1 2 3 4 5 6 7 8 9 10 11 12 13 14 15 16 17 18 19 20 21 22 23 24 25 26. unfold Id3. cbn [nth]. field.
               ++ reflexivity.
          * apply Rsum_zero. intros q Hq. apply in_seq in Hq. rewrite B by lia. rewrite (proj2 (Nat.eqb_neq p 0)) by lia. reflexivity.
      - intros p Hp. apply in_seq in Hp. rewrite B by lia. destruct (Nat.eqb_spec p 0), (Nat.eqb_spec p 1); cbn [andb]; reflexivity || lia. }
    rewrite Z, cube_blk. unfold sum3, delta, entries, cube_gauss. cbn. lra.
Qed.
Print Assumptions C60_K_refuted.

(** Once computed, K() stays the same when the elements rotate, although the matrix added to the system changes. *)
Theorem C60_K_outdated_refuted :
  exists m E nu x f t1 t2, valid_mesh m /\ field (length (x0 m)) 3 x /\ field (length (x0 m)) 3 f /\
    let s1 := after m (fresh true E nu) [Reinit; GetK] in
    let s2 := after m s1 [AddForce x f] in
    snd (K m s2) = snd (K m s1) /\
    addKToMatrix m s1 1 0 = Some t1 /\ addKToMatrix m s2 1 0 = Some t2 /\ exists i j, coeff t1 i j <> coeff t2 i j.
Proof.
  set (m := cube_mesh). set (x := rigid quarter_turn [0; 0; 0] (x0 m)). pose proof cube_mesh_valid as VM. fold m in VM.
  set (s1 := after m (fresh true 1 0) [Reinit; GetK]). set (s2 := after m s1 [AddForce x (x0 m)]).
  assert (O1 : once m 1 0 s1) by (exact (once_step m 1 0 (cube_state true) GetK VM I (cube_once true))).
  assert (O2 : once m 1 0 s2) by (exact (once_step m 1 0 s1 (AddForce x (x0 m)) VM I O1)).
  destruct (addKToMatrix_spec m s1 1 0 1 0 VM (proj1 O1)) as (t1 & A1 & _). destruct (addKToMatrix_spec m s2 1 0 1 0 VM (proj1 O2)) as (t2 & A2 & _).
  assert (FX : field 8 3 (x0 m)) by apply VM.
  exists m, 1, 0, x, (x0 m), t1, t2. split; [exact VM|]. split; [apply rigid_field; [apply quarter_turn_rotation|reflexivity|exact FX]|]. split; [exact FX|].
  cbv zeta. fold s1. fold s2.
  assert (U : K_is_up_to_date s1 = true) by (unfold s1; cbn [after fold_left step]; unfold K; destruct (K_is_up_to_date (reinit m (fresh true 1 0))) eqn:Eu; [exact Eu|reflexivity]).
  assert (S2 : K_is_up_to_date s2 = true /\ p_K s2 = p_K s1) by (unfold s2; cbn [after fold_left step]; unfold addForce; destruct (negb _); cbn [fst]; split; (exact U || reflexivity)).
  split; [unfold K; rewrite U, (proj1 S2); exact (proj2 S2)|]. split; [exact A1|]. split; [exact A2|].
  exists (0 * 3 + 0)%nat, (0 * 3 + 1)%nat.
  rewrite (cube_coeff s1 1 0 1 t1 0 0 0 1 (proj1 O1) A1), (cube_coeff s2 1 0 1 t2 0 0 0 1 (proj1 O2) A2) by lia.
  assert (Q1 : quad_of s1 0 = [cube_gauss]) by (rewrite <- cube_gauss_nodes; apply (proj2 O1 0%nat); cbn; lia).
  assert (Q2 : quad_of s2 0 = [cube_gauss]) by (rewrite <- cube_gauss_nodes; apply (proj2 O2 0%nat); cbn; lia).
  assert (R1 : R1_of s1 0 = Id3) by reflexivity.
  assert (R2 : R1_of s2 0 = quarter_turn).
  { transitivity (frame (HexahedronElastic true) (gather x [0; 1; 2; 3; 4; 5; 6; 7]%nat)).
    - unfold s2. cbn [after fold_left step]. unfold addForce. destruct (negb _) eqn:En; [|reflexivity]. exfalso.
      apply negb_true_iff, Nat.eqb_neq in En. apply En. destruct O1 as [(Lq & Ek & _) _]. rewrite Ek, map_length. exact Lq.
    - unfold x. rewrite (gather_rigid 8) by (first [exact FX | (repeat constructor)]). rewrite frame_rigid.
      + change m with cube_mesh. rewrite cube_frame. unfold matmul, quarter_turn, Id3, column, vdot. cbn. list3; ring.
      + exact quarter_turn_rotation.
      + reflexivity.
      + repeat constructor.
      + reflexivity. }
  unfold tblock. rewrite Q1, Q2, R1, R2.
  assert (B : forall a b, (a < 3)%nat -> (b < 3)%nat -> blk 1 0 [cube_gauss] 0 0 a b = if Nat.eqb a b then / 4 else / 16).
  { intros a b Ha Hb. rewrite cube_blk. unfold sum3, delta, entries, cube_gauss. destruct a as [|[|[|]]], b as [|[|[|]]]; try lia; cbn; field. }
  unfold sum3. rewrite !B by lia. cbn [Nat.eqb]. unfold entries, Id3, quarter_turn. cbn [nth]. lra.
Qed.
Print Assumptions C60_K_outdated_refuted.

(** C71_reinit_hexahedra_refuted is about real forces: one more initialisation changes the force of the pulled cube. *)
Example C71_example : exists f1 f2 f, let x := map (fun p => vscale 2 p) (x0 cube_mesh) in
  snd (addForce cube_mesh (after cube_mesh (fresh false 1 0) [Reinit]) x f) = Some f1 /\
  snd (addForce cube_mesh (after cube_mesh (fresh false 1 0) [Reinit; Reinit]) x f) = Some f2 /\ f1 <> f2.
Proof.
  set (x := map (fun p => vscale 2 p) (x0 cube_mesh)). set (m := cube_mesh). pose proof cube_mesh_valid as VM. fold m in VM. assert (FX : field 8 3 (x0 m)) by apply VM.
  assert (Fx : field 8 3 x) by (split; [reflexivity|repeat constructor]).
  destruct (C71_reinit_hexahedra_refuted m true false 1 0 x (x0 m) 1 eq_refl VM Fx FX) as (f1 & f2 & A1 & A2 & V).
  exists f1, f2, (x0 m). cbv zeta. split; [exact A1|]. split; [exact A2|]. intros EQ. rewrite <- EQ in V.
  assert (SAME : f1 = x0 m).
  { destruct (C70_without_corotation m 1 0 [] x (x0 m) VM (Forall_nil _) Fx FX) as (f1' & A1' & Ff1 & _). rewrite A1 in A1'. injection A1' as <-.
    apply (fields_equal 8); [exact Ff1|exact FX|]. intros p c Hc. specialize (V p c Hc). unfold entries. cbn [INR] in V. lra. }
  destruct (C70_without_corotation m 1 0 [] x (x0 m) VM (Forall_nil _) Fx FX) as (f1' & A1' & _ & W). rewrite A1 in A1'. injection A1' as <-.
  specialize (W (x0 m) FX). rewrite SAME in W.
  assert (WL : linear_elastic_work m 1 0 (displacement m x) (x0 m) = 24).
  { assert (EQ2 : linear_elastic_work m 1 0 (displacement m x) (x0 m) = works m (cube_state false) 1 0 (fun e j k => entries (displacement m x) (nth j (row_of_element m e) 0%nat) k) (fun e j k => entries (x0 m) (nth j (row_of_element m e) 0%nat) k)).
    { symmetry. apply works_linear; [exact VM|apply cube_once|reflexivity|reflexivity]. }
    rewrite EQ2. unfold works. change (length (elements m)) with 1%nat. cbn [seq map Rsum fold_right]. rewrite cube_quad. change (row_of_element m 0) with [0; 1; 2; 3; 4; 5; 6; 7]%nat.
    cbn [map Rsum fold_right].
    assert (G : forall i j, (i < 3)%nat -> (j < 3)%nat -> grad (nn m) (fun j k => entries (x0 m) (nth j [0; 1; 2; 3; 4; 5; 6; 7]%nat 0%nat) k) (entries (dN_dx cube_gauss)) i j = delta i j).
    { intros i j Hi Hj. change (nn m) with 8%nat. unfold grad, entries, delta, cube_gauss. destruct i as [|[|[|]]], j as [|[|[|]]]; try lia; cbn; field. }
    assert (G2 : forall i j, (i < 3)%nat -> (j < 3)%nat -> grad (nn m) (fun j k => entries (displacement m x) (nth j [0; 1; 2; 3; 4; 5; 6; 7]%nat 0%nat) k) (entries (dN_dx cube_gauss)) i j = delta i j).
    { intros i j Hi Hj. change (nn m) with 8%nat. unfold grad, entries, delta, cube_gauss, displacement, x. destruct i as [|[|[|]]], j as [|[|[|]]]; try lia; cbn; field. }
    rewrite (form_ext 1 0 _ delta _ delta G2 G). unfold form, lame_l, lame_mu, sum3, delta. cbn. field. }
  rewrite WL in W. lra.
Qed.
