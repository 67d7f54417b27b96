(** C103: the elastic forces do not depend on how the mesh is numbered. *)

From Coq Require Import ZArith Reals Lra Lia.
From Coquelicot Require Import Coquelicot.
From Coq Require Import List Arith Bool Permutation.
From Verif Require Import GridGeoModel ShapeModel ShapeSpec ShapeProofs ShapeGaussProofs LinAlg LinAlgProofs RectModel BarycentricModel MappingSpec TensorModel TensorSpec
  MaterialModel MaterialSpec MaterialProofs MaterialProperties SparseModel Sums TractionModel TractionProofs HyperModel HyperSpec HyperProofs HyperProofs2 EnergyProofs.
From Verif Require Import CorotModel CorotSpec CorotProofs CorotProofs2 CorotProofs3 CorotProofs4 CorotProperties CorotProperties2 ObjectivityProperties.
From Verif Require Import RectProofs.
From Verif Require Import NumberingSpec NumberingProofs NumberingProofs2 NumberingProofs3 NumberingProofs4 NumberingProofs5.
Import ListNotations.
Open Scope R_scope.

(** ** The listings *)

(** Every generator is an affine map that carries the nodes of the reference element onto its nodes, in the stated order. *)
Theorem C103_symmetries :
  forall e s, In s (symmetries e) ->
    map (carried s) (canonical_nodes e) = map (fun a => nth a (canonical_nodes e) []) (order s) /\
    Permutation (order s) (seq 0 (NumberOfNodes e)) /\ (det (turn s) = 1 \/ det (turn s) = -1).
Proof.
  intros e s Hs. split; [apply (symmetry_nodes e s Hs)|]. split; [apply (symmetry_order e s Hs)|].
  rewrite det_entries by apply (symmetry_turn e s Hs). apply (symmetry_turn e s Hs).
Qed.
Print Assumptions C103_symmetries.

(** The listings reached after n rounds of generators; used to enumerate them. *)
Definition same_listing (a b : list nat) : bool := if list_eq_dec Nat.eq_dec a b then true else false.
Definition add_listing (l : list (list nat)) (row : list nat) : list (list nat) := if existsb (same_listing row) l then l else l ++ [row].
Definition round (e : element) (l : list (list nat)) : list (list nat) :=
  fold_left add_listing (flat_map (fun row => map (fun s => map (fun a => nth a row 0%nat) (order s)) (symmetries e)) l) l.
Fixpoint listings (n : nat) (e : element) (row : list nat) : list (list nat) :=
  match n with 0%nat => [row] | S n => round e (listings n e row) end.
Lemma add_listing_in l x row : In x (add_listing l row) -> In x l \/ x = row.
Proof. unfold add_listing. destruct (existsb _ _); [left; assumption|]. intros H. apply in_app_iff in H. destruct H as [H|[H|[] ] ]; [left; exact H|right; symmetry; exact H]. Qed.
Lemma round_relisted e row0 l : Forall (relisted e row0) l -> Forall (relisted e row0) (round e l).
Proof.
  intros F. unfold round.
  assert (G : Forall (relisted e row0) (flat_map (fun row => map (fun s => map (fun a => nth a row 0%nat) (order s)) (symmetries e)) l)).
  { apply Forall_forall. intros x H. apply in_flat_map in H. destruct H as (row & Hr & H). apply in_map_iff in H. destruct H as (s & <- & Hs). apply one_more; [exact Hs|exact (proj1 (Forall_forall _ _) F row Hr)]. }
  revert G F. generalize (flat_map (fun row => map (fun s => map (fun a => nth a row 0%nat) (order s)) (symmetries e)) l) as q. intros q. revert l. induction q as [|a q IH]; intros l G F; [exact F|].
  apply Forall_cons_iff in G. destruct G as [Ga G]. cbn [fold_left]. apply IH; [exact G|]. apply Forall_forall. intros x H. destruct (add_listing_in _ _ _ H) as [H0| ->]; [exact (proj1 (Forall_forall _ _) F x H0)|exact Ga].
Qed.
Lemma listings_relisted n e row : Forall (relisted e row) (listings n e row).
Proof. induction n as [|n IH]; [constructor; [constructor|constructor]|]. apply round_relisted, IH. Qed.

(** Among them are all the orders of the four corners of a tetrahedron... *)
Theorem C103_every_listing_of_a_tetrahedron :
  forall row row', length row = 4%nat -> Permutation row row' -> relisted Tetrahedron_Linear row row'.
Proof.
  intros row row' L P. destruct row as [|a [|b [|c [|d [|] ] ] ] ]; try discriminate L.
  assert (S : forall w x y z, relisted Tetrahedron_Linear [a; b; c; d] [w; x; y; z] -> relisted Tetrahedron_Linear [a; b; c; d] [x; w; y; z]).
  { intros w x y z H. apply (one_more Tetrahedron_Linear _ _ {| order := [1; 0; 2; 3]%nat; turn := swap_of_corners; shift := [1; 0; 0] |} (or_introl eq_refl) H). }
  assert (C : forall w x y z, relisted Tetrahedron_Linear [a; b; c; d] [w; x; y; z] -> relisted Tetrahedron_Linear [a; b; c; d] [x; y; z; w]).
  { intros w x y z H. apply (one_more Tetrahedron_Linear _ _ {| order := [1; 2; 3; 0]%nat; turn := cycle_of_corners; shift := [1; 0; 0] |} (or_intror (or_introl eq_refl)) H). }
  (* the three exchanges of neighbours *)
  assert (S1 : forall w x y z, relisted Tetrahedron_Linear [a; b; c; d] [w; x; y; z] -> relisted Tetrahedron_Linear [a; b; c; d] [w; y; x; z]).
  { intros w x y z H. apply C, C, C, S, C. exact H. }
  assert (S2 : forall w x y z, relisted Tetrahedron_Linear [a; b; c; d] [w; x; y; z] -> relisted Tetrahedron_Linear [a; b; c; d] [w; x; z; y]).
  { intros w x y z H. apply C, C, S, C, C. exact H. }
  (* a permutation is a sequence of exchanges of neighbours *)
  assert (G : forall u v, Permutation u v -> forall p, length (p ++ u) = 4%nat -> relisted Tetrahedron_Linear [a; b; c; d] (p ++ u) -> relisted Tetrahedron_Linear [a; b; c; d] (p ++ v)).
  { intros u v Q. induction Q as [|x u v Q IH|x y u|u v w Q1 IH1 Q2 IH2]; intros p Lp H.
    - exact H.
    - specialize (IH (p ++ [x])). rewrite <- !app_assoc in IH. cbn [app] in IH. apply IH; assumption.
    - destruct p as [|p0 [|p1 [|p2 p] ] ]; cbn [app length] in Lp.
      + destruct u as [|u0 [|u1 [|] ] ]; try discriminate Lp. cbn [app] in *. apply S. exact H.
      + destruct u as [|u0 [|] ]; try discriminate Lp. cbn [app] in *. apply S1. exact H.
      + destruct u as [|]; try discriminate Lp. cbn [app] in *. apply S2. exact H.
      + rewrite app_length in Lp. cbn [length] in Lp. lia.
    - apply IH2; [rewrite app_length in *; rewrite <- (Permutation_length Q1); exact Lp|]. apply IH1; assumption. }
  apply (G _ _ P []); [exact L|constructor].
Qed.
Print Assumptions C103_every_listing_of_a_tetrahedron.
(** ... and there are 24 listings of a tetrahedron and 48 of a hexahedron, whatever the number of nodes of the element. *)
Example C103_number_of_listings :
  map (fun e => length (listings 9 e (seq 0 (NumberOfNodes e)))) [Tetrahedron_Linear; Tetrahedron_Quadratic; Hexahedron_Linear; Hexahedron_Quadratic] = [24; 24; 48; 48]%nat.
Proof. vm_compute. reflexivity. Qed.

(** ** Hyperelastic force fields *)

(** Same elements, in another order and listed otherwise, mirrors included: same forces... *)
Theorem C103_hyperelastic_forces :
  forall m d d' x f, let N := length (positions d) in
    solid d -> same_elements d d' -> field N 3 x -> field N 3 f ->
    HyperModel.addForce m d' x f = HyperModel.addForce m d x f.
Proof. intros m d d' x f N Sd SE Fx Ff. apply (same_forces m d d' Sd SE x f Fx Ff). Qed.
Print Assumptions C103_hyperelastic_forces.
(** ... same energy... *)
Theorem C103_hyperelastic_energy :
  forall m d d' x, let N := length (positions d) in
    solid d -> regular d -> same_elements d d' -> field N 3 x ->
    getPotentialEnergy m d' x = getPotentialEnergy m d x.
Proof. intros m d d' x N Sd RG SE Fx. apply (same_energy m d d' Sd SE x RG Fx). Qed.
Print Assumptions C103_hyperelastic_energy.
(** ... same increments. *)
Theorem C103_hyperelastic_increments :
  forall m d d' x k v df, let N := length (positions d) in
    solid d -> distinct_nodes d -> same_elements d d' -> field N 3 x -> field N 3 v -> field N 3 df ->
    HyperModel.addDForce (assemble_stiffness m d' x) (N * 3) k (concat v) (concat df) =
    HyperModel.addDForce (assemble_stiffness m d x) (N * 3) k (concat v) (concat df).
Proof. intros m d d' x k v df N Sd ND SE Fx Fv Fd. apply (same_increments m d d' Sd SE x k v df ND Fv Fd). Qed.
Print Assumptions C103_hyperelastic_increments.

(** Other numbers for the nodes: the forces follow the nodes. *)
Theorem C103_hyperelastic_numbers :
  forall m d s t x f, let N := length (positions d) in let d' := renumbered_mesh s t d in
    solid d -> renumbering N s t -> field N 3 x -> field N 3 f ->
    HyperModel.addForce m d' (renumbered N t x) (renumbered N t f) = option_map (renumbered N t) (HyperModel.addForce m d x f) /\
    getPotentialEnergy m d' (renumbered N t x) = getPotentialEnergy m d x.
Proof.
  intros m d s t x f N d' Sd RN Fx Ff. split; [apply (renumbered_forces m d s t N Sd eq_refl RN x f Fx Ff)|apply (renumbered_energy m d s t N Sd eq_refl RN x Fx)].
Qed.
Print Assumptions C103_hyperelastic_numbers.
Theorem C103_hyperelastic_numbers_increments :
  forall m d s t x k v df, let N := length (positions d) in let d' := renumbered_mesh s t d in
    solid d -> distinct_nodes d -> renumbering N s t -> field N 3 x -> field N 3 v -> field N 3 df ->
    exists df', field N 3 df' /\
      HyperModel.addDForce (assemble_stiffness m d x) (N * 3) k (concat v) (concat df) = Some (concat df') /\
      HyperModel.addDForce (assemble_stiffness m d' (renumbered N t x)) (N * 3) k (concat (renumbered N t v)) (concat (renumbered N t df)) = Some (concat (renumbered N t df')).
Proof. intros m d s t x k v df N d' Sd ND RN Fx Fv Fd. apply (renumbered_increments m d s t N Sd eq_refl RN x k v df ND Fx Fv Fd). Qed.
Print Assumptions C103_hyperelastic_numbers_increments.

(** ** Corotational force fields, with the option on or off *)

(** The order of the elements. *)
Theorem C103_corotational_order :
  forall m m' c E nu calls calls' x f g g' k dx df, let N := length (x0 m) in
    reordered m m' -> valid_mesh m -> Forall evaluation calls -> Forall evaluation calls' -> field N 3 f -> field N 3 df ->
    snd (addForce m' (after m' (fresh c E nu) (Reinit :: calls')) x f) = snd (addForce m (after m (fresh c E nu) (Reinit :: calls)) x f) /\
    addDForce m' (after m' (fresh c E nu) (Reinit :: calls' ++ [AddForce x g'])) k dx df = addDForce m (after m (fresh c E nu) (Reinit :: calls ++ [AddForce x g])) k dx df.
Proof. intros m m' c E nu calls calls' x f g g' k dx df N RO VM E1 E2 Ff Fd. split; [apply reordered_forces; assumption|apply reordered_increments; assumption]. Qed.
Print Assumptions C103_corotational_order.

(** The numbers of the nodes. *)
Theorem C103_corotational_numbers :
  forall m s t c E nu calls calls' x f g g' k dx df, let N := length (x0 m) in let m' := renumbered_elements s t m in
    renumbering N s t -> valid_mesh m -> Forall evaluation calls -> Forall evaluation calls' -> field N 3 f -> field N 3 df ->
    snd (addForce m' (after m' (fresh c E nu) (Reinit :: calls')) (renumbered N t x) (renumbered N t f)) =
      option_map (renumbered N t) (snd (addForce m (after m (fresh c E nu) (Reinit :: calls)) x f)) /\
    addDForce m' (after m' (fresh c E nu) (Reinit :: calls' ++ [AddForce (renumbered N t x) g'])) k (renumbered N t dx) (renumbered N t df) =
      option_map (renumbered N t) (addDForce m (after m (fresh c E nu) (Reinit :: calls ++ [AddForce x g])) k dx df).
Proof. intros m s t c E nu calls calls' x f g g' k dx df N m' RN VM E1 E2 Ff Fd. split; [apply renumbered_corot_forces; assumption|apply renumbered_corot_increments; assumption]. Qed.
Print Assumptions C103_corotational_numbers.

(** With the option off, elements turned in their listing give the same forces... *)
Theorem C103_without_corotation_listing_partial :
  forall m m' E nu calls calls' x f, let N := length (x0 m) in
    valid_mesh m -> listed_otherwise 1 m m' -> Forall evaluation calls -> Forall evaluation calls' -> field N 3 x -> field N 3 f ->
    snd (addForce m' (after m' (fresh false E nu) (Reinit :: calls')) x f) = snd (addForce m (after m (fresh false E nu) (Reinit :: calls)) x f).
Proof.
  intros m m' E nu calls calls' x f N VM (T & X & rows & F & P) E1 E2 Fx Ff.
  destruct (oriented_forces m m' 1 rows VM T X F P E nu calls calls' x f E1 E2 Fx Ff) as (g & _ & A & B). rewrite A, B. reflexivity.
Qed.
Print Assumptions C103_without_corotation_listing_partial.
(** ... but with elements listed through a mirror every force is reversed: the body pushes where it should pull. *)
Theorem C103_mirrored_listing_refuted :
  forall m m' E nu calls calls' x f, let N := length (x0 m) in
    valid_mesh m -> listed_otherwise (-1) m m' -> Forall evaluation calls -> Forall evaluation calls' -> field N 3 x -> field N 3 f ->
    exists g, field N 3 g /\
      snd (addForce m (after m (fresh false E nu) (Reinit :: calls)) x f) = Some (displaced f g 1) /\
      snd (addForce m' (after m' (fresh false E nu) (Reinit :: calls')) x f) = Some (displaced f g (-1)).
Proof. intros m m' E nu calls calls' x f N VM (T & X & rows & F & P) E1 E2 Fx Ff. apply (oriented_forces m m' (-1) rows VM T X F P E nu calls calls' x f E1 E2 Fx Ff). Qed.
Print Assumptions C103_mirrored_listing_refuted.

(** With the option on, even a listing that is turned, not mirrored, changes the stiffness. *)
Definition cycled_tetrahedron : mesh :=
  {| type := TetrahedronElastic; x0 := [[0; 0; 0]; [1; 0; 0]; [0; 1; 0]; [0; 0; 1]]; elements := [[0; 2; 3; 1]%nat] |}.
Definition cycled_frame : list (list R) := [[0; 0; 1]; [1; 0; 0]; [0; 1; 0]].
Lemma cycled_jacobian : forall p, jacobian 3 Tetrahedron_Linear (gather (x0 cycled_tetrahedron) [0; 2; 3; 1]%nat) p = cycled_frame.
Proof. intros p. unfold gather, cycled_frame. cbn. list3; ring. Qed.
Lemma cycled_tetrahedron_valid : valid_mesh cycled_tetrahedron.
Proof.
  valid_tac. cbn [type cycled_tetrahedron integration_points]. unfold gauss_nodes, Tetrahedron_Linear_gauss. cbn [firstn].
  constructor; [|constructor]. match goal with |- det ?J <> 0 => assert (H : det J = 1) end; [unfold gather; cbn; ring|]. rewrite H. lra.
Qed.
Lemma cycled_gauss : gauss_nodes_of TetrahedronElastic (gather (x0 cycled_tetrahedron) [0; 2; 3; 1]%nat) =
  [ {| weight := 1 / 6; jacobian_determinant := 1; dN_dx := [[-1; -1; -1]; [0; 1; 0]; [0; 0; 1]; [1; 0; 0]] |} ].
Proof.
  unfold gauss_nodes_of. cbn [integration_points]. unfold gauss_nodes, Tetrahedron_Linear_gauss. cbn [firstn map fst snd].
  apply f_equal2; [|reflexivity].
  match goal with |- {| weight := ?w; jacobian_determinant := det ?J; dN_dx := _ |} = _ => assert (HJ : J = cycled_frame) end.
  { unfold gather, cycled_frame. cbn. list3; ring. }
  rewrite HJ. clear HJ.
  assert (HD : det cycled_frame = 1) by (unfold det, cycled_frame; cbn; ring).
  assert (HI : inverse cycled_frame = [[0; 1; 0]; [0; 0; 1]; [1; 0; 0]]) by (unfold inverse; rewrite HD; unfold cycled_frame; cbn; list3; field).
  rewrite HD, HI.
  match goal with |- {| weight := ?w; jacobian_determinant := _; dN_dx := ?a |} = {| weight := ?w'; jacobian_determinant := _; dN_dx := ?b |} =>
    assert (A : a = b); [cbn; list3; ring|assert (B : w = w') by (reflexivity || field); rewrite A; first [reflexivity | rewrite B; reflexivity]] end.
Qed.
Lemma cycled_frame_is : frame TetrahedronElastic (gather (x0 cycled_tetrahedron) [0; 2; 3; 1]%nat) = cycled_frame.
Proof.
  cbn [frame]. unfold tetrahedron_frame, gather. cbn [x0 cycled_tetrahedron map nth].
  assert (A : vminus [0; 1; 0] [0; 0; 0] = [0; 1; 0]) by (unfold vcross; cbn; list3; ring).
  assert (B : vminus [0; 0; 1] [0; 0; 0] = [0; 0; 1]) by (unfold vcross; cbn; list3; ring).
  rewrite A, B. rewrite (normalized_unit 0 1 0), (normalized_unit 0 0 1) by ring.
  assert (C : vcross [0; 1; 0] [0; 0; 1] = [1; 0; 0]) by (unfold vcross; cbn; list3; ring). rewrite C. rewrite (normalized_unit 1 0 0) by ring.
  assert (D : vcross [1; 0; 0] [0; 1; 0] = [0; 0; 1]) by (unfold vcross; cbn; list3; ring). rewrite D. rewrite (normalized_unit 0 0 1) by ring. reflexivity.
Qed.
Lemma cycled_listing : listed_otherwise 1 plain_tetrahedron cycled_tetrahedron.
Proof.
  split; [reflexivity|]. split; [reflexivity|]. exists [[0; 2; 3; 1]%nat]. split; [|apply Permutation_refl]. constructor; [|constructor].
  set (s0 := {| order := [1; 0; 2; 3]%nat; turn := swap_of_corners; shift := [1; 0; 0] |}). set (s1 := {| order := [1; 2; 3; 0]%nat; turn := cycle_of_corners; shift := [1; 0; 0] |}).
  assert (D : det (turn s1) * (det (turn s0) * 1) = 1) by (unfold det, s0, s1, swap_of_corners, cycle_of_corners; cbn; ring). rewrite <- D.
  apply (one_symmetry Tetrahedron_Linear [0; 1; 2; 3]%nat _ [1; 0; 2; 3]%nat s1 (or_intror (or_introl eq_refl))).
  apply (one_symmetry Tetrahedron_Linear [0; 1; 2; 3]%nat _ [0; 1; 2; 3]%nat s0 (or_introl eq_refl)). constructor.
Qed.
Theorem C103_corotational_listing_refuted :
  exists m m' E nu dx df, let N := length (x0 m) in
    valid_mesh m /\ valid_mesh m' /\ listed_otherwise 1 m m' /\ 0 < E /\ -1 < nu < / 2 /\ field N 3 dx /\ field N 3 df /\
    addDForce m' (after m' (fresh true E nu) [Reinit; AddForce (x0 m') df]) 1 dx df <>
    addDForce m (after m (fresh true E nu) [Reinit; AddForce (x0 m) df]) 1 dx df.
Proof.
  set (m := plain_tetrahedron). set (mt := cycled_tetrahedron). set (dx := [[0; 0; 0]; [1; 0; 0]; [0; 0; 0]; [0; 0; 0]]). set (df := [[0; 0; 0]; [0; 0; 0]; [0; 0; 0]; [0; 0; 0]]).
  assert (Fx : field 4 3 dx) by (split; [reflexivity|repeat constructor]). assert (Ff : field 4 3 df) by (split; [reflexivity|repeat constructor]).
  exists m, mt, 1, 0, dx, df. cbv zeta. pose proof cycled_tetrahedron_valid as VT. pose proof plain_tetrahedron_valid as VP. fold m in VP. fold mt in VT.
  split; [exact VP|]. split; [exact VT|]. split; [exact cycled_listing|]. split; [lra|]. split; [lra|]. split; [exact Fx|]. split; [exact Ff|].
  destruct (C70_corotated_aligned_partial m 1 0 df 1 dx df VP) as (d1 & A1 & Fd1 & W1); [constructor; [exact plain_frame|constructor]|exact Fx|exact Ff|].
  rewrite A1. set (s := after mt (fresh true 1 0) [Reinit; AddForce (x0 mt) df]).
  assert (O : once mt 1 0 s) by (apply (once_step mt 1 0 (reinit mt (fresh true 1 0)) (AddForce (x0 mt) df) VT I), once_reinit; exact VT).
  destruct O as [IN QQ].
  assert (Q0 : quad_of s 0 = [ {| weight := 1 / 6; jacobian_determinant := 1; dN_dx := [[-1; -1; -1]; [0; 1; 0]; [0; 0; 1]; [1; 0; 0]] |} ]) by (rewrite (QQ 0%nat) by (cbn; lia); exact cycled_gauss).
  destruct (dforce_work mt s 1 0 1 dx df dx 4 VT eq_refl IN Fx Ff Fx) as (d2 & A2 & _ & W2). rewrite A2. intros [= C]. subst d2.
  assert (WS : works mt s 1 0 (fun e => uincr (R1_of s e) dx (row_of_element mt e)) (fun e => uincr (R1_of s e) dx (row_of_element mt e)) = / 12).
  { unfold works. cbn [elements mt cycled_tetrahedron length seq map Rsum fold_right].
    rewrite Q0. change (row_of_element mt 0) with [0; 2; 3; 1]%nat. cbn [map Rsum fold_right jacobian_determinant weight dN_dx].
    assert (R : R1_of s 0 = cycled_frame) by (exact cycled_frame_is). rewrite R.
    unfold form, lame_l, lame_mu, grad, uincr, sum3, entries, dx, cycled_frame, nn. cbn. field. }
  assert (WL : linear_elastic_work m 1 0 dx dx = / 6).
  { unfold linear_elastic_work. cbv zeta. cbn [m plain_tetrahedron elements type x0 integration_points map]. unfold gauss_nodes, Tetrahedron_Linear_gauss. cbn [firstn map fst snd].
    unfold field_gradient. set (J := jacobian _ _ (gather [[0; 0; 0]; [1; 0; 0]; [0; 1; 0]; [0; 0; 1]] _) _). set (G := jacobian _ _ (gather dx _) _).
    assert (HJ : J = Id3) by (unfold J, gather; cbn; unfold Id3; repeat (f_equal; try ring)). assert (HG : G = [[1; 0; 0]; [0; 0; 0]; [0; 0; 0]]) by (unfold G, gather, dx; cbn; repeat (f_equal; try ring)).
    rewrite HJ, HG. assert (HI : inverse Id3 = Id3) by (unfold Id3, inverse, det; repeat (f_equal; try field)). rewrite HI.
    unfold product, small_strain, tr, double_dot, of_entries, entries, sum3, Id3, det. cbn. field. }
  rewrite WS in W2. specialize (W1 dx Fx). rewrite WL in W1. lra.
Qed.
Print Assumptions C103_corotational_listing_refuted.

(** ** Witnesses *)

(** Two tetrahedra with a common face: elements exchanged, one listed otherwise; nodes numbered backwards. *)
Definition pair_listed_otherwise : domain :=
  {| dim := 3; kind := Tetrahedron_Linear; positions := positions pair_of_tetrahedra; connectivity := [ [3; 4; 2; 1]; [0; 1; 2; 3] ]%nat |}.
Definition backwards (i : nat) : nat := (4 - i)%nat.
Example C103_pair : same_elements pair_of_tetrahedra pair_listed_otherwise.
Proof.
  split; [reflexivity|]. split; [reflexivity|]. split; [reflexivity|]. exists [ [0; 1; 2; 3]; [3; 4; 2; 1] ]%nat. split.
  - constructor; [constructor|]. constructor; [|constructor]. apply C103_every_listing_of_a_tetrahedron; [reflexivity|].
    apply (Permutation_trans (perm_swap _ _ _)). change [3; 4; 2; 1]%nat with ([3; 4; 2] ++ [1])%nat. change [1; 4; 2; 3]%nat with ([1] ++ [4; 2; 3])%nat. 
    apply (Permutation_trans (Permutation_app_comm _ _)). cbn [app]. apply (Permutation_trans (l' := [4; 3; 2; 1]%nat)); [apply perm_skip, perm_swap|apply perm_swap].
  - apply perm_swap.
Qed.
Example C103_backwards : renumbering 5 backwards backwards.
Proof. intros i Hi. unfold backwards. lia. Qed.
Example C103_hyper_example : forall k f, field 5 3 f ->
  HyperModel.addForce (before_update k 1000 (/ 3)) pair_listed_otherwise stretched f = HyperModel.addForce (before_update k 1000 (/ 3)) pair_of_tetrahedra stretched f /\
  HyperModel.addForce (before_update k 1000 (/ 3)) (renumbered_mesh backwards backwards pair_of_tetrahedra) (renumbered 5 backwards stretched) (renumbered 5 backwards f) =
    option_map (renumbered 5 backwards) (HyperModel.addForce (before_update k 1000 (/ 3)) pair_of_tetrahedra stretched f).
Proof.
  intros k f Ff. destruct C102_hyper_hypotheses as (S1 & _ & _ & S2 & _). split; [apply C103_hyperelastic_forces; [exact S1|exact C103_pair|exact S2|exact Ff]|].
  apply C103_hyperelastic_numbers; [exact S1|exact C103_backwards|exact S2|exact Ff].
Qed.
(** The nodes of a real mesh do move: the renumbered rest positions and rows of the pair. *)
Example C103_numbers_shape : positions (renumbered_mesh backwards backwards pair_of_tetrahedra) = [ [1; 1; 1]; [0; 0; 1]; [0; 1; 0]; [1; 0; 0]; [0; 0; 0] ] /\
  connectivity (renumbered_mesh backwards backwards pair_of_tetrahedra) = [ [4; 3; 2; 1]; [0; 3; 2; 1] ]%nat.
Proof. split; reflexivity. Qed.
Definition mirrored_tetrahedron : mesh := {| type := TetrahedronElastic; x0 := x0 plain_tetrahedron; elements := [[1; 0; 2; 3]%nat] |}.
Example C103_mirrored : listed_otherwise (-1) plain_tetrahedron mirrored_tetrahedron.
Proof.
  split; [reflexivity|]. split; [reflexivity|]. exists [[1; 0; 2; 3]%nat]. split; [|apply Permutation_refl]. constructor; [|constructor].
  set (s0 := {| order := [1; 0; 2; 3]%nat; turn := swap_of_corners; shift := [1; 0; 0] |}).
  assert (D : det (turn s0) * 1 = -1) by (unfold det, s0, swap_of_corners; cbn; ring). rewrite <- D.
  apply (one_symmetry Tetrahedron_Linear [0; 1; 2; 3]%nat _ [0; 1; 2; 3]%nat s0 (or_introl eq_refl)). constructor.
Qed.
Definition pair_mesh : mesh := {| type := TetrahedronElastic; x0 := positions pair_of_tetrahedra; elements := connectivity pair_of_tetrahedra |}.
Example C103_pair_valid : valid_mesh pair_mesh.
Proof.
  split; [discriminate|]. split; [split; [reflexivity|repeat constructor]|].
  repeat (constructor; [split; [reflexivity|]; split; [repeat constructor; cbn; lia|];
    cbn [type pair_mesh integration_points]; unfold gauss_nodes, Tetrahedron_Linear_gauss; cbn [firstn]; constructor; [|constructor]; intros H; cbv -[Rplus Rmult Rminus Ropp IZR] in H; lra|]). constructor.
Qed.
Example C103_corotational_example : forall c f df, field 5 3 f -> field 5 3 df ->
  snd (addForce (renumbered_elements backwards backwards pair_mesh) (after (renumbered_elements backwards backwards pair_mesh) (fresh c 1000 (/ 3)) [Reinit]) (renumbered 5 backwards stretched) (renumbered 5 backwards f)) =
    option_map (renumbered 5 backwards) (snd (addForce pair_mesh (after pair_mesh (fresh c 1000 (/ 3)) [Reinit; GetK]) stretched f)).
Proof.
  intros c f df Ff Fd. apply (C103_corotational_numbers pair_mesh backwards backwards c 1000 (/ 3) [GetK] [] stretched f f f 1 df df C103_backwards C103_pair_valid); first [assumption | repeat constructor].
Qed.
