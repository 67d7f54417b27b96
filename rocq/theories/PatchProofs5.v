(** Meshes for the patch test of linear elasticity (C97). *)

From Coq Require Import ZArith Reals Lra Lia.
From Coquelicot Require Import Coquelicot.
From Coq Require Import List Arith Bool Permutation.
From Flocq Require Import Core.Raux.
From Verif Require Import GridGeoModel ShapeModel ShapeSpec ShapeProofs ShapeFieldProofs ShapeGaussProofs LinAlg LinAlgProofs RectModel RectProofs BarycentricModel MappingSpec MappingProofs TensorModel TensorSpec
  MaterialModel MaterialSpec MaterialProofs SparseModel SparseProofs Sums HyperModel HyperSpec HyperProofs HyperProofs2 HyperProofs3 HyperProofs4 HyperProperties
  StabilityProofs StabilityProofs2 EnergySpec EnergyProofs PatchSpec PatchProofs PatchProofs2.
From Verif Require Import CorotModel CorotSpec CorotProofs CorotProofs2 CorotProofs3 CorotProofs4 CorotProperties PatchProofs3.
Import ListNotations.
Open Scope R_scope.

Ltac same_faces :=
  apply NoDup_Permutation; [repeat (constructor; [cbn; intuition discriminate|]); constructor|repeat (constructor; [cbn; intuition discriminate|]); constructor|intros f; cbn; tauto].

(** Four tetrahedra around the node 0. *)
Definition star : mesh :=
  {| type := TetrahedronElastic; x0 := [[0; 0; 0]; [1; 0; 0]; [0; 1; 0]; [0; 0; 1]; [-1; -1; -1]];
     elements := [[0; 1; 2; 3]; [0; 2; 1; 4]; [0; 3; 2; 4]; [0; 1; 3; 4]]%nat |}.
Definition stretch : list (list R) := [[2; 0; 0]; [0; 1; 0]; [0; 0; 1]].
Definition stretched : list (list R) := [[0; 0; 0]; [2; 0; 0]; [0; 1; 0]; [0; 0; 1]; [-2; -1; -1]].
Lemma stretched_placed : placed [0; 0; 0] stretch (x0 star) = stretched.
Proof. unfold placed, stretch, stretched. cbn. repeat (f_equal; try ring). Qed.

Lemma star_det row g : In row (elements star) -> det (jacobian 3 Tetrahedron_Linear (gather (x0 star) row) g) = 1.
Proof. intros Hr. cbn in Hr. repeat (destruct Hr as [<-|Hr]; [unfold gather; cbn; ring|]). destruct Hr. Qed.
Lemma star_valid : valid_mesh star.
Proof.
  split; [discriminate|]. split; [split; [reflexivity|repeat constructor]|].
  apply Forall_forall. intros row Hr. split; [|split].
  - cbn in Hr. repeat (destruct Hr as [<-|Hr]; [reflexivity|]). destruct Hr.
  - cbn in Hr. repeat (destruct Hr as [<-|Hr]; [repeat constructor|]). destruct Hr.
  - apply Forall_forall. intros g _. cbn [type star kind_of_elements]. rewrite star_det by exact Hr. lra.
Qed.
Lemma star_interior : interior (body star) 0.
Proof. unfold interior, paired. cbv. same_faces. Qed.
Lemma star_solid : solid (body star).
Proof. apply body_solid, star_valid. Qed.
Lemma star_numbered : numbered_alike (body star) 1.
Proof.
  split; [left; reflexivity|]. apply Forall_forall. intros row Hr. apply Forall_forall. intros g _.
  unfold local_volume. cbn [kind body type star kind_of_elements]. change (nodes_of_element (body star) row) with (gather (x0 star) row). rewrite star_det by exact Hr. lra.
Qed.

Definition star_dN (e : nat) : list (list R) :=
  nth e [ [[-1; -1; -1]; [1; 0; 0]; [0; 1; 0]; [0; 0; 1]]; [[-1; -1; 3]; [0; 1; -1]; [1; 0; -1]; [0; 0; -1]];
          [[3; -1; -1]; [-1; 0; 1]; [-1; 1; 0]; [-1; 0; 0]]; [[-1; 3; -1]; [1; -1; 0]; [0; -1; 1]; [0; -1; 0]] ] [].
Definition star_frame (e : nat) : list (list R) :=
  nth e [ [[1; 0; 0]; [0; 1; 0]; [0; 0; 1]]; [[0; 1; 0]; [1; 0; 0]; [0; 0; -1]]; [[0; 0; -1]; [0; 1; 0]; [1; 0; 0]]; [[1; 0; 0]; [0; 0; -1]; [0; 1; 0]] ] [].
Lemma star_gauss e : (e < 4)%nat -> gauss_nodes_of TetrahedronElastic (gather (x0 star) (row_of_element star e)) =
  [ {| weight := 1 / 6; jacobian_determinant := 1; dN_dx := star_dN e |} ].
Proof.
  intros He. assert (Hr : In (row_of_element star e) (elements star)) by (apply nth_In; exact He).
  unfold gauss_nodes_of. cbn [integration_points]. unfold gauss_nodes, Tetrahedron_Linear_gauss. cbn [firstn map fst snd].
  apply f_equal2; [|reflexivity]. cbn [kind_of_elements].
  match goal with |- context [det ?J] => assert (HD : det J = 1) by (apply star_det; exact Hr) end.
  match goal with |- {| weight := ?w; jacobian_determinant := ?j; dN_dx := ?a |} = {| weight := ?w'; jacobian_determinant := ?j'; dN_dx := ?b |} =>
    assert (A : a = b); [|rewrite A, HD; reflexivity] end.
  unfold inverse. rewrite HD. clear HD.
  destruct e as [|[|[|[|]]]]; try lia; unfold star_dN, gather; cbn; repeat (f_equal; try field).
Qed.
Ltac the_frame := cbn [frame]; unfold tetrahedron_frame, gather; cbn [nth map row_of_element elements star x0 stretched star_frame];
  repeat match goal with |- context [vminus ?a ?b] => let H := fresh in
    first [assert (H : vminus a b = [1; 0; 0]) by (cbn; list3; ring)|assert (H : vminus a b = [0; 1; 0]) by (cbn; list3; ring)|assert (H : vminus a b = [0; 0; 1]) by (cbn; list3; ring)
          |assert (H : vminus a b = [2 * 1; 2 * 0; 2 * 0]) by (cbn; list3; ring)]; rewrite H; clear H end;
  rewrite ?(normalized_scaled 1 0 0 2), ?(normalized_unit 1 0 0), ?(normalized_unit 0 1 0), ?(normalized_unit 0 0 1) by (lra || ring);
  repeat match goal with |- context [vcross ?a ?b] => let H := fresh in
    first [assert (H : vcross a b = [1; 0; 0]) by (unfold vcross; cbn; list3; ring)|assert (H : vcross a b = [0; 1; 0]) by (unfold vcross; cbn; list3; ring)|assert (H : vcross a b = [0; 0; 1]) by (unfold vcross; cbn; list3; ring)
          |assert (H : vcross a b = [-1; 0; 0]) by (unfold vcross; cbn; list3; ring)|assert (H : vcross a b = [0; -1; 0]) by (unfold vcross; cbn; list3; ring)|assert (H : vcross a b = [0; 0; -1]) by (unfold vcross; cbn; list3; ring)]; rewrite H; clear H;
    rewrite ?(normalized_unit 1 0 0), ?(normalized_unit 0 1 0), ?(normalized_unit 0 0 1), ?(normalized_unit (-1) 0 0), ?(normalized_unit 0 (-1) 0), ?(normalized_unit 0 0 (-1)) by ring end;
  reflexivity.
Lemma star_frame0 e : (e < 4)%nat -> frame TetrahedronElastic (gather (x0 star) (row_of_element star e)) = star_frame e.
Proof. intros He. destruct e as [|[|[|[|]]]]; try lia; unfold row_of_element; the_frame. Qed.
Lemma star_frame1 e : (e < 4)%nat -> frame TetrahedronElastic (gather stretched (row_of_element star e)) = star_frame e.
Proof. intros He. destruct e as [|[|[|[|]]]]; try lia; unfold row_of_element; the_frame. Qed.

Lemma star_force f : field 5 3 f -> exists f', snd (addForce star (after star (fresh true 1 0) [Reinit]) stretched f) = Some f' /\ entries f' 0 0 = entries f 0 0 + 1 / 6.
Proof.
  intros Ff. pose proof star_valid as VM. set (s := after star (fresh true 1 0) [Reinit]).
  destruct (once_reinit star true 1 0 VM) as [IN Q]. change (reinit star (fresh true 1 0)) with s in IN, Q.
  assert (Fx : field 5 3 stretched) by (split; [reflexivity|repeat constructor]).
  destruct (force_work star s 1 0 stretched f (unit_field 5 0 0) 5 VM eq_refl IN Fx Ff (unit_field_field 5 0 0)) as (f' & A & Ff' & W). exists f'. split; [exact A|].
  rewrite !(power_unit star 5) in W by (assumption || lia). rewrite W.
  assert (R0 : forall e, (e < 4)%nat -> R0_of s e = star_frame e).
  { intros e He. rewrite <- star_frame0 by exact He. destruct e as [|[|[|[|]]]]; try lia; reflexivity. }
  assert (R1 : forall e, (e < 4)%nat -> nth e (rotations_after star s stretched) [] = star_frame e).
  { intros e He. rewrite <- star_frame1 by exact He. destruct e as [|[|[|[|]]]]; try lia; reflexivity. }
  assert (G : forall e, (e < 4)%nat -> quad_of s e = [ {| weight := 1 / 6; jacobian_determinant := 1; dN_dx := star_dN e |} ]).
  { intros e He. rewrite (Q e He). apply star_gauss, He. }
  unfold works. cbn [elements star length seq map Rsum fold_right]. rewrite !G, !R0, !R1 by lia. clear.
  cbn [map Rsum fold_right jacobian_determinant weight dN_dx]. unfold Rminus. f_equal.
  unfold form, lame_l, lame_mu, grad, udisp, uincr, sum3, entries, nn, star_dN, star_frame, row_of_element, unit_field. cbn. field.
Qed.

(** Four hexahedra around the node 0, two of whose faces are not plane. *)
Definition burr : mesh :=
  {| type := HexahedronElastic true;
     x0 := [ [0; 0; 0]; [1; 0; 0]; [0; 1; 0]; [0; 0; 1]; [-1; -1; -1]; [1; 3/2; 0]; [1; 0; 3/2]; [0; -1; -1]; [0; 1; 1]; [-1; 0; -1]; [-1; -1; 0]; [1; 1; 1]; [0; 0; -1]; [0; -1; 0]; [-1; 0; 0] ];
     elements := [[0; 1; 5; 2; 3; 6; 11; 8]; [0; 2; 5; 1; 4; 9; 12; 7]; [0; 3; 8; 2; 4; 10; 14; 9]; [0; 1; 6; 3; 4; 7; 13; 10]]%nat |}.
Lemma burr_valid : valid_mesh burr.
Proof.
  split; [discriminate|]. split; [split; [reflexivity|repeat constructor]|].
  apply Forall_forall. intros row Hr. split; [|split].
  - cbn in Hr. repeat (destruct Hr as [<-|Hr]; [reflexivity|]). destruct Hr.
  - cbn in Hr. repeat (destruct Hr as [<-|Hr]; [repeat constructor; cbn; lia|]). destruct Hr.
  - cbn in Hr. constructor; [|constructor]. cbn [type burr kind_of_elements].
    repeat (destruct Hr as [<-|Hr]; [cbv -[Rplus Rmult Rminus Ropp Rdiv Rinv IZR]; lra|]). destruct Hr.
Qed.
Lemma burr_interior : interior (body burr) 0.
Proof. unfold interior, paired. cbv. same_faces. Qed.
Lemma burr_sum : Rsum (map (fun row => Rsum (map (fun a => if Nat.eqb (nth a row 0%nat) 0 then
    nodal_integral Hexahedron_Linear (integration_points (type burr)) (nodes_of_element (body burr) row) a 0 else 0) (seq 0 8))) (elements burr)) = 1 / 64.
Proof. cbn [elements burr map seq nth Nat.eqb]. unfold nodal_integral. cbv -[Rplus Rmult Rminus Ropp Rdiv Rinv IZR]. field. Qed.
Lemma root_third : exists s, 1 / sqrt 3 = s / 3 /\ -1 / sqrt 3 = - s / 3 /\ s * s = 3 /\ 17/10 < s < 18/10.
Proof.
  exists (sqrt 3). assert (Hs : sqrt 3 * sqrt 3 = 3) by (apply sqrt_sqrt; lra). assert (Hp : 0 < sqrt 3) by (apply sqrt_lt_R0; lra).
  split; [field [Hs]; lra|]. split; [field [Hs]; lra|]. split; [exact Hs|]. split; nra.
Qed.
Lemma burr_numbered : numbered_alike (body burr) 1.
Proof.
  split; [left; reflexivity|]. apply Forall_forall. intros row Hr. cbn in Hr. apply Forall_forall. intros g Hg.
  cbn [kind body type burr kind_of_elements gauss_nodes] in Hg. unfold Hexahedron_Linear_gauss in Hg.
  destruct root_third as (s & H1 & H2 & Hs & Hb). rewrite H1, H2 in Hg. clear H1 H2.
  repeat (destruct Hr as [<-|Hr]; [cbn in Hg; repeat (destruct Hg as [<-|Hg]; [cbv -[Rplus Rmult Rminus Ropp Rdiv Rinv IZR Rlt];
    match goal with |- 0 < ?X => field_simplify [Hs] X end; lra|]); destruct Hg|]). destruct Hr.
Qed.
