(** Quadratic hexahedra with straight edges: forces of a uniform state (C97). *)

From Coq Require Import ZArith Reals Lra Lia.
From Coquelicot Require Import Coquelicot.
From Coq Require Import List Arith Bool Permutation.
From Verif Require Import GridGeoModel ShapeModel ShapeSpec ShapeProofs ShapeFieldProofs ShapeGaussProofs LinAlg LinAlgProofs BarycentricModel MappingSpec MappingProofs TensorModel TensorSpec
  MaterialModel MaterialSpec MaterialProofs SparseModel SparseProofs Sums HyperModel HyperSpec HyperProofs HyperProofs2 HyperProofs3 HyperProofs4 HyperProperties
  StabilityProofs StabilityProofs2 EnergySpec EnergyProofs PatchSpec PatchProofs PatchProofs2 HexPatchSpec HexPatchProofs.
Import ListNotations.
Open Scope R_scope.

Lemma trilinear_faces x0 y0 z0 x1 y1 z1 x2 y2 z2 x3 y3 z3 x4 y4 z4 x5 y5 z5 x6 y6 z6 x7 y7 z7 a k : (a < 20)%nat -> (k < 3)%nat ->
  let c := [[x0;y0;z0];[x1;y1;z1];[x2;y2;z2];[x3;y3;z3];[x4;y4;z4];[x5;y5;z5];[x6;y6;z6];[x7;y7;z7]] in
  nodal_integral Hexahedron_Quadratic (gauss_nodes Hexahedron_Quadratic) (filled c) a k = bilinear_nodal (filled c) a k.
Proof.
  intros Ha Hk c. destruct k as [|[|[|] ] ]; try lia.
  - apply trilinear_first. exact Ha.
  - transitivity (nodal_integral Hexahedron_Quadratic (gauss_nodes Hexahedron_Quadratic) (map (fun p => [nth 1 p 0; nth 2 p 0; nth 0 p 0]) (filled c)) a 0).
    + unfold nodal_integral. apply Rsum_ext. intros g _. reflexivity.
    + change (map (fun p => [nth 1 p 0; nth 2 p 0; nth 0 p 0]) (filled c)) with (filled (map (fun p => [nth 1 p 0; nth 2 p 0; nth 0 p 0]) c)). unfold c at 1. cbn [map nth]. rewrite trilinear_first by exact Ha.
      do 20 (destruct a as [|a]; [unfold bilinear_nodal; f_equal; cbv -[Rplus Rmult Rminus Ropp Rdiv Rinv IZR]; reflexivity|]). lia.
  - transitivity (nodal_integral Hexahedron_Quadratic (gauss_nodes Hexahedron_Quadratic) (map (fun p => [nth 2 p 0; nth 0 p 0; nth 1 p 0]) (filled c)) a 0).
    + unfold nodal_integral. apply Rsum_ext. intros g _. reflexivity.
    + change (map (fun p => [nth 2 p 0; nth 0 p 0; nth 1 p 0]) (filled c)) with (filled (map (fun p => [nth 2 p 0; nth 0 p 0; nth 1 p 0]) c)). unfold c at 1. cbn [map nth]. rewrite trilinear_first by exact Ha.
      do 20 (destruct a as [|a]; [unfold bilinear_nodal; f_equal; cbv -[Rplus Rmult Rminus Ropp Rdiv Rinv IZR]; reflexivity|]). lia.
Qed.

Lemma bilinear_ext X Y b f : (forall i, In i f -> X i = Y i) -> bilinear_share X (b, f) = bilinear_share Y (b, f).
Proof.
  intros H. unfold bilinear_share. cbn [fst snd].
  assert (N : forall j, (j < length f)%nat -> X (nth j f 0%nat) = Y (nth j f 0%nat)) by (intros j Hj; apply H, nth_In, Hj).
  destruct f as [|? [|? [|? [|? [|? [|? [|? [|? [|] ] ] ] ] ] ] ] ]; cbn [length] in *; try reflexivity; destruct b; try reflexivity;
    repeat match goal with |- context [X (nth ?j ?l 0%nat)] => rewrite (N j) by (cbn [length]; lia) end; reflexivity.
Qed.
Lemma bilinear_map X h b f : bilinear_share X (b, map h f) = bilinear_share (fun i => X (h i)) (b, f).
Proof.
  unfold bilinear_share. cbn [fst snd]. rewrite map_length.
  destruct f as [|? [|? [|? [|? [|? [|? [|? [|? [|] ] ] ] ] ] ] ] ]; cbn [length map nth]; destruct b; reflexivity.
Qed.
Lemma bilinear_other_side X f k : (forall i, length (X i) = 3%nat) -> (k < 3)%nat ->
  nth k (bilinear_share X (other_side f)) 0 = - nth k (bilinear_share X f) 0.
Proof.
  intros HX Hk. destruct f as [b f]. unfold other_side. cbn [fst snd].
  assert (E : forall i, exists x y z, X i = [x; y; z]) by (intros i; apply length3, HX).
  destruct f as [|i0 [|i1 [|i2 [|i3 [|i4 [|i5 [|i6 [|i7 [|] ] ] ] ] ] ] ] ];
    try (unfold bilinear_share; cbn [fst snd rev app length]; destruct b, k; cbn; ring);
    try (unfold bilinear_share; cbn [fst snd]; cbn [length]; rewrite rev_length; cbn [length]; destruct b; destruct k as [|[|[|] ] ]; cbn; lra).
  unfold bilinear_share. cbn [fst snd rev app length nth].
  destruct (E i0) as (x0 & y0 & z0 & ->), (E i1) as (x1 & y1 & z1 & ->), (E i2) as (x2 & y2 & z2 & ->), (E i3) as (x3 & y3 & z3 & ->),
    (E i4) as (x4 & y4 & z4 & ->), (E i5) as (x5 & y5 & z5 & ->), (E i6) as (x6 & y6 & z6 & ->), (E i7) as (x7 & y7 & z7 & ->). destruct b; destruct k as [|[|[|] ] ]; try lia; cbn; field.
Qed.
Lemma paired_bilinear X l k : (forall i, length (X i) = 3%nat) -> (k < 3)%nat -> paired l -> Rsum (map (fun f => nth k (bilinear_share X f) 0) l) = 0.
Proof.
  intros HX Hk P. unfold paired in P. pose proof (Permutation_map (fun f => nth k (bilinear_share X f) 0) P) as Q. apply Rsum_permutation in Q. rewrite map_map in Q.
  rewrite (Rsum_ext _ (fun f => nth k (bilinear_share X (other_side f)) 0) (fun f => - nth k (bilinear_share X f) 0)) in Q by (intros f _; apply bilinear_other_side; assumption).
  rewrite Rsum_opp in Q. lra.
Qed.
Lemma bilinear_split d l uncovered covered k : solid d -> (k < 3)%nat -> Permutation l (uncovered ++ covered) -> paired covered -> bilinear_shares d l k = bilinear_shares d uncovered k.
Proof.
  intros Sd Hk P PC. unfold bilinear_shares. rewrite (Rsum_permutation _ _ (Permutation_map (fun f => nth k (bilinear_share (site d) f) 0) P)). rewrite map_app, Rsum_app.
  rewrite (paired_bilinear (site d) covered k) by (try assumption; intros i; apply site_length, Sd). ring.
Qed.

Section Mesh.
Context (d : domain) (s : R).
Hypothesis Sd : solid d.
Hypothesis KD : kind d = Hexahedron_Quadratic.
Hypothesis SE : forall row, In row (connectivity d) -> straight_edges d row.

Lemma filled_nodes row : In row (connectivity d) -> exists c, length c = 8%nat /\ Forall (fun p => length p = 3%nat) c /\ nodes_of_element d row = filled c.
Proof.
  intros Hr. destruct (solid_row d row Sd Hr) as [Hl HF]. rewrite KD in Hl. cbn [NumberOfNodes] in Hl. pose proof (SE row Hr) as H. unfold straight_edges in H.
  assert (F : Forall (fun p => length p = 3%nat) (nodes_of_element d row)).
  { apply Forall_forall. intros p Hp. unfold nodes_of_element in Hp. apply in_map_iff in Hp. destruct Hp as (i & <- & Hi).
    apply (proj1 (Forall_forall _ _) (proj2 (proj2 (proj2 Sd)))), nth_In. exact (proj1 (Forall_forall _ _) HF i Hi). }
  assert (L : length (nodes_of_element d row) = 20%nat) by (unfold nodes_of_element; rewrite map_length; exact Hl).
  revert H F L. generalize (nodes_of_element d row). intros X H F L. exists (firstn 8 X). split; [rewrite firstn_length; lia|]. split; [apply Forall_forall; intros p Hp; apply (proj1 (Forall_forall _ _) F); rewrite <- (firstn_skipn 8 X); apply in_app_iff; left; exact Hp|].
  apply (nth_ext _ _ [] []); [unfold filled; rewrite app_length, map_length, firstn_length, L; reflexivity|]. intros n Hn. rewrite L in Hn.
  do 20 (destruct X as [|? X]; [discriminate L|]). destruct X; [|discriminate L].
  do 8 (destruct n as [|n]; [reflexivity|]).
  assert (M : forall e, (e < 12)%nat -> nth (8 + e) (filled (firstn 8 [l; l0; l1; l2; l3; l4; l5; l6; l7; l8; l9; l10; l11; l12; l13; l14; l15; l16; l17; l18])) [] =
    middle (nth (fst (snd (nth e edges (0, (0, 0))%nat))) [l; l0; l1; l2; l3; l4; l5; l6; l7; l8; l9; l10; l11; l12; l13; l14; l15; l16; l17; l18] []) (nth (snd (snd (nth e edges (0, (0, 0))%nat))) [l; l0; l1; l2; l3; l4; l5; l6; l7; l8; l9; l10; l11; l12; l13; l14; l15; l16; l17; l18] [])).
  { intros e He. do 12 (destruct e as [|e]; [reflexivity|]). lia. }
  change (S (S (S (S (S (S (S (S n)))))))) with (8 + n)%nat. rewrite M by lia. unfold middle. rewrite <- (H (8 + n)%nat); [reflexivity|].
  do 12 (destruct n as [|n]; [cbn; tauto|]). lia.
Qed.
Lemma trilinear_shares row a k : In row (connectivity d) -> (a < 20)%nat -> (k < 3)%nat ->
  nodal_integral Hexahedron_Quadratic (gauss_nodes Hexahedron_Quadratic) (nodes_of_element d row) a k = bilinear_nodal (nodes_of_element d row) a k.
Proof.
  intros Hr Ha Hk. destruct (filled_nodes row Hr) as (c & L & F & ->).
  destruct c as [|p0 [|p1 [|p2 [|p3 [|p4 [|p5 [|p6 [|p7 [|] ] ] ] ] ] ] ] ]; try discriminate. repeat rewrite Forall_cons_iff in F. destruct F as (F0 & F1 & F2 & F3 & F4 & F5 & F6 & F7 & _).
  destruct (length3 _ F0) as (x0 & y0 & z0 & ->), (length3 _ F1) as (x1 & y1 & z1 & ->), (length3 _ F2) as (x2 & y2 & z2 & ->), (length3 _ F3) as (x3 & y3 & z3 & ->),
    (length3 _ F4) as (x4 & y4 & z4 & ->), (length3 _ F5) as (x5 & y5 & z5 & ->), (length3 _ F6) as (x6 & y6 & z6 & ->), (length3 _ F7) as (x7 & y7 & z7 & ->).
  apply trilinear_faces; assumption.
Qed.
Lemma bilinear_link row a k : In row (connectivity d) ->
  bilinear_nodal (nodes_of_element d row) a k =
  Rsum (map (fun f => nth k (bilinear_share (site d) f) 0) (map (fun f => (corner Hexahedron_Quadratic a, map (fun i => nth i row 0%nat) f)) (faces_around Hexahedron_Quadratic a))).
Proof.
  intros Hr. destruct (solid_row d row Sd Hr) as [Hl HF]. rewrite KD in Hl. unfold bilinear_nodal. rewrite map_map. apply Rsum_ext. intros f Hf. f_equal.
  rewrite bilinear_map. apply bilinear_ext. intros i Hi. unfold nodes_of_element.
  rewrite (nth_indep _ [] ((fun i => nth i (positions d) []) 0%nat)) by (rewrite map_length, Hl; exact (faces_in _ _ _ _ Hf Hi)).
  rewrite (map_nth (fun i => nth i (positions d) [])). unfold site. apply nth_indep. apply (proj1 (Forall_forall _ _) HF), nth_In. rewrite Hl. exact (faces_in _ _ _ _ Hf Hi).
Qed.
Hypothesis NA : numbered_alike d s.
Lemma trilinear_force m t Q f p c : length t = 3%nat -> matrix3 Q -> field (length (positions d)) 3 f -> (c < 3)%nat ->
  exists f', addForce m d (placed t Q (positions d)) f = Some f' /\ field (length (positions d)) 3 f' /\
    entries f' p c = entries f p c - s * sum3 (fun k => entries (stress_power m Q) c k * bilinear_shares d (link d p) k).
Proof.
  intros Lt MQ Ff Hc. destruct (patch_integral d s Sd NA m t Q f p c Lt MQ Ff Hc) as (f' & E & Ff' & S). exists f'. split; [exact E|]. split; [exact Ff'|].
  rewrite S. f_equal. f_equal. apply sum3_ext. intros k Hk. f_equal. unfold bilinear_shares, link. rewrite Rsum_flat_map. apply Rsum_ext. intros row Hr.
  rewrite Rsum_flat_map. rewrite KD. apply Rsum_ext. intros a Ha. apply in_seq in Ha. cbn [NumberOfNodes] in Ha. destruct (Nat.eqb (nth a row 0%nat) p); [|reflexivity].
  rewrite trilinear_shares by (assumption || lia). apply bilinear_link; assumption.
Qed.
End Mesh.

(** ** A mesh with bent edges *)
Ltac same_faces :=
  apply NoDup_Permutation; [repeat (constructor; [cbn; intuition discriminate|]); constructor|repeat (constructor; [cbn; intuition discriminate|]); constructor|intros f; cbn; tauto].

(** Two quadratic hexahedra around the edge from (0, 0, -1) to (0, 0, 1), whose middle is node 16; the nodes 10 and 14, on the other side of the first one, are moved away from the middles of their edges. *)
Definition bent_pipe : domain :=
  {| dim := 3; kind := Hexahedron_Quadratic;
     positions := [ [0; 0; -1]; [1; 0; -1]; [0; 1; -1]; [-1; 0; -1]; [0; 0; 1]; [1; 0; 1]; [0; 1; 1]; [-1; 0; 1];
                    [1/2; 0; -1]; [1/2; 1/2; -1]; [-1/2; 1; -1]; [-1/2; 0; -1]; [1/2; 0; 1]; [1/2; 1/2; 1]; [-1/2; 1/2; 3/2]; [-1/2; 0; 1];
                    [0; 0; 0]; [1; 0; 0]; [0; 1; 0]; [-1; 0; 0];
                    [0; -1; -1]; [0; -1; 1]; [-1/2; -1/2; -1]; [1/2; -1/2; -1]; [-1/2; -1/2; 1]; [1/2; -1/2; 1]; [0; -1; 0] ];
     connectivity := [ [0; 1; 2; 3; 4; 5; 6; 7; 8; 9; 10; 11; 12; 13; 14; 15; 16; 17; 18; 19];
                       [0; 3; 20; 1; 4; 7; 21; 5; 11; 22; 23; 8; 15; 24; 25; 12; 16; 19; 26; 17] ]%nat |}.
Lemma bent_pipe_solid : solid bent_pipe.
Proof.
  split; [|split; [reflexivity|split; [reflexivity|repeat constructor] ] ].
  apply Forall_forall. intros row Hr. cbn in Hr. repeat (destruct Hr as [<-|Hr]; [split; [reflexivity|repeat constructor; cbn; lia]|]). destruct Hr.
Qed.
Lemma root3_bounds : exists r, 1 / sqrt 3 = r / 3 /\ -1 / sqrt 3 = - r / 3 /\ r * r = 3 /\ 17 / 10 < r < 18 / 10.
Proof.
  destruct root3 as (r & A & B & C). exists r. repeat split; try assumption.
  - assert (P : 0 < 1 / sqrt 3) by (apply Rdiv_lt_0_compat; [lra|apply sqrt_lt_R0; lra]). rewrite A in P. nra.
  - assert (P : 0 < 1 / sqrt 3) by (apply Rdiv_lt_0_compat; [lra|apply sqrt_lt_R0; lra]). rewrite A in P. nra.
Qed.
Lemma bent_pipe_interior : interior bent_pipe 16.
Proof. unfold interior, paired. cbv. same_faces. Qed.
Lemma first_jacobian u v w : jacobian 3 Hexahedron_Quadratic (nodes_of_element bent_pipe (seq 0 20)) [u; v; w] =
  [ [1/2; -1/2; 0]; [(1 + v)/4 - u*(1 + v)*(1 - w)/4; (1 + u)/4 + (1 - u*u)*(1 - w)/8; - ((1 - u*u)*(1 + v)/8)]; [- (u*(1 + v)*(1 + w)/4); (1 - u*u)*(1 + w)/8; 1 + (1 - u*u)*(1 + v)/8] ].
Proof.
  unfold jacobian. cbv -[Rplus Rmult Rminus Ropp Rdiv Rinv IZR].
  repeat (apply f_equal2; [repeat (apply f_equal2; [field|]); reflexivity|]); reflexivity.
Qed.
Lemma second_jacobian u v w : jacobian 3 Hexahedron_Quadratic (nodes_of_element bent_pipe [0; 3; 20; 1; 4; 7; 21; 5; 11; 22; 23; 8; 15; 24; 25; 12; 16; 19; 26; 17]%nat) [u; v; w] =
  [ [-1/2; 1/2; 0]; [- ((1 + v)/4); - ((1 + u)/4); 0]; [0; 0; 1] ].
Proof.
  unfold jacobian. cbv -[Rplus Rmult Rminus Ropp Rdiv Rinv IZR].
  repeat (apply f_equal2; [repeat (apply f_equal2; [field|]); reflexivity|]); reflexivity.
Qed.
Lemma bent_pipe_numbered : numbered_alike bent_pipe 1.
Proof.
  split; [left; reflexivity|]. apply Forall_forall. intros row Hr. apply Forall_forall. intros g Hg.
  assert (B : exists u v w, fst g = [u; v; w] /\ (u = 1 / sqrt 3 \/ u = -1 / sqrt 3) /\ (v = 1 / sqrt 3 \/ v = -1 / sqrt 3) /\ (w = 1 / sqrt 3 \/ w = -1 / sqrt 3)).
  { cbn [kind bent_pipe gauss_nodes] in Hg. unfold Hexahedron_Quadratic_gauss in Hg. cbn [In] in Hg.
    repeat (destruct Hg as [<-|Hg]; [eexists _, _, _; split; [reflexivity|]; tauto|]). destruct Hg. }
  destruct B as (u & v & w & -> & Hu & Hv & Hw). destruct root3_bounds as (r & E1 & E2 & Hr2 & Lo & Hi). rewrite E1, E2 in Hu, Hv, Hw. unfold local_volume.
  cbn [connectivity bent_pipe In] in Hr. destruct Hr as [<-|[<-|[] ] ].
  - change [0; 1; 2; 3; 4; 5; 6; 7; 8; 9; 10; 11; 12; 13; 14; 15; 16; 17; 18; 19]%nat with (seq 0 20). cbn [kind bent_pipe]. rewrite first_jacobian.
    unfold det. cbn [nth entries column map]. cbv -[Rplus Rmult Rminus Ropp Rdiv Rinv IZR Rlt].
    destruct Hu as [-> | ->], Hv as [-> | ->], Hw as [-> | ->]; nra.
  - cbn [kind bent_pipe]. rewrite second_jacobian. cbv -[Rplus Rmult Rminus Ropp Rdiv Rinv IZR Rlt].
    destruct Hu as [-> | ->], Hv as [-> | ->]; lra.
Qed.
Lemma bent_pipe_sum : Rsum (map (fun row => Rsum (map (fun a => if Nat.eqb (nth a row 0%nat) 16 then nodal_integral Hexahedron_Quadratic (gauss_nodes Hexahedron_Quadratic) (nodes_of_element bent_pipe row) a 0 else 0)
        (seq 0 20))) (connectivity bent_pipe)) = 1 / 81.
Proof.
  cbn [connectivity bent_pipe map seq nth Nat.eqb]. unfold nodal_integral, gauss_nodes, Hexahedron_Quadratic_gauss. cbn [map fst snd].
  change [0; 1; 2; 3; 4; 5; 6; 7; 8; 9; 10; 11; 12; 13; 14; 15; 16; 17; 18; 19]%nat with (seq 0 20). rewrite !first_jacobian, !second_jacobian.
  destruct root3 as (r & -> & -> & Hr). cbv -[Rplus Rmult Rminus Ropp Rdiv Rinv IZR]. field [Hr].
Qed.
