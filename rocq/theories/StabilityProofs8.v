(** Linear hexahedra with an open corner move rigidly when they are not strained (C93). *)

From Coq Require Import ZArith Reals Lra Lia.
From Coquelicot Require Import Coquelicot.
From Coq Require Import List Arith Bool.
From Verif Require Import GridGeoModel ShapeModel ShapeSpec ShapeProofs ShapeFieldProofs ShapeGaussProofs LinAlg LinAlgProofs RectSpec NewtonLocalProofs BarycentricModel MappingSpec MappingProofs TensorModel TensorSpec
  MaterialModel MaterialSpec MaterialProofs MaterialProperties SparseModel SparseProofs Sums HyperModel HyperSpec HyperProofs HyperProofs2 HyperProofs3 HyperProofs4 HyperProperties
  SpectrumProofs StabilitySpec StabilityProofs StabilityProofs2 StabilityProofs3 StabilityProofs4 StabilityProofs5 StabilityProofs7.
Import ListNotations.
Open Scope R_scope.

Definition sg (p : bool) : R := if p then 1 / sqrt 3 else -1 / sqrt 3.
Lemma sg_negb p : sg (negb p) - sg p <> 0.
Proof. pose proof g3_bounds as [P _]. destruct p; cbn [negb sg]; rewrite ?neg_g3; fold g3; lra. Qed.
Lemma gauss_in a b c : exists q, In q (gauss_nodes Hexahedron_Linear) /\ fst q = [sg a; sg b; sg c].
Proof.
  cbn [gauss_nodes]. unfold Hexahedron_Linear_gauss. destruct a, b, c; cbn [sg];
  match goal with |- exists q, _ /\ fst q = ?l => exists (l, 1); split; [cbn [In]; tauto|reflexivity] end.
Qed.
Lemma gauss_all q : In q (gauss_nodes Hexahedron_Linear) -> exists a b c, fst q = [sg a; sg b; sg c].
Proof.
  cbn [gauss_nodes]. unfold Hexahedron_Linear_gauss. cbn [In].
  intros [<-|[<-|[<-|[<-|[<-|[<-|[<-|[<-|[]]]]]]]]]; [exists false, false, false|exists true, false, false|exists false, true, false|exists true, true, false
    |exists false, false, true|exists true, false, true|exists false, true, true|exists true, true, true]; reflexivity.
Qed.

(** Along a local direction the shape functions are linear. *)
Lemma along0 k u u' s v w : (k < 8)%nat -> nth k (L Hexahedron_Linear [u'; v; w]) 0 - nth k (L Hexahedron_Linear [u; v; w]) 0 = (u' - u) * der Hexahedron_Linear k 0 [s; v; w].
Proof. intros Hk. unfold der. cbn [L dL]. unfold Hexahedron_Linear_L, Hexahedron_Linear_dL. cbn [nth]. do 8 (destruct k as [|k]; [cbn [nth]; field|]). lia. Qed.
Lemma along1 k u s v v' w : (k < 8)%nat -> nth k (L Hexahedron_Linear [u; v'; w]) 0 - nth k (L Hexahedron_Linear [u; v; w]) 0 = (v' - v) * der Hexahedron_Linear k 1 [u; s; w].
Proof. intros Hk. unfold der. cbn [L dL]. unfold Hexahedron_Linear_L, Hexahedron_Linear_dL. cbn [nth]. do 8 (destruct k as [|k]; [cbn [nth]; field|]). lia. Qed.
Lemma along2 k u v s w w' : (k < 8)%nat -> nth k (L Hexahedron_Linear [u; v; w']) 0 - nth k (L Hexahedron_Linear [u; v; w]) 0 = (w' - w) * der Hexahedron_Linear k 2 [u; v; s].
Proof. intros Hk. unfold der. cbn [L dL]. unfold Hexahedron_Linear_L, Hexahedron_Linear_dL. cbn [nth]. do 8 (destruct k as [|k]; [cbn [nth]; field|]). lia. Qed.

Section Hexahedron.
Context (d : domain) (v : list (list R)) (row : list nat).
Hypothesis Sd : solid d.
Hypothesis RG : regular d.
Hypothesis HK : kind d = Hexahedron_Linear.
Hypothesis Hr : In row (connectivity d).
Hypothesis SF : strain_free d v.
Let X := entries (positions d).
Let V := entries v.
Let node (k : nat) : nat := nth k row 0%nat.

(** Values and derivatives of a field at a local point *)
Definition val (f : nat -> vec) (xi : list R) : vec := fun c => Rsum (map (fun k => f (node k) c * nth k (L Hexahedron_Linear xi) 0) (seq 0 8)).
Definition dif (f : nat -> vec) (xi : list R) (j : nat) : vec := fun c => Rsum (map (fun k => f (node k) c * der Hexahedron_Linear k j xi) (seq 0 8)).

Lemma row8 : length row = 8%nat. Proof. rewrite (proj1 (solid_row d row Sd Hr)), HK. reflexivity. Qed.
Lemma dif_entries x xi c j : (c < 3)%nat -> (j < 3)%nat -> entries (jacobian 3 (kind d) (gather x row) xi) c j = dif (entries x) xi j c.
Proof.
  intros Hc Hj. change xi with (fst (xi, 0)). rewrite (jacobian_entries d row (xi, 0)), entries_of_entries by (first [assumption | apply Sd | rewrite HK; exact row8]).
  unfold grad, dif. rewrite HK. cbn [NumberOfNodes fst]. apply Rsum_ext. intros a Ha. apply in_seq in Ha. rewrite gather_entries by (rewrite row8; lia). reflexivity.
Qed.
Lemma val_world a b c i : (i < 3)%nat -> nth i (integration_point d row a b c) 0 = val X [sg a; sg b; sg c] i.
Proof.
  intros Hi. unfold integration_point, world_coordinates, interpolate. fold (sg a) (sg b) (sg c). rewrite nth_map_seq by exact Hi. simpl plus. rewrite HK.
  rewrite (map2_seq _ _ _ [] 0 8); [|unfold nodes_of_element; rewrite map_length; exact row8|reflexivity].
  unfold val. apply Rsum_ext. intros k Hk. apply in_seq in Hk. cbv beta. change (nth (0 + i) (nth k (nodes_of_element d row) []) 0) with (entries (gather (positions d) row) k i).
  rewrite gather_entries by (rewrite row8; lia). reflexivity.
Qed.
Lemma value_along f j xi xi' s c : (forall k, (k < 8)%nat -> nth k (L Hexahedron_Linear xi') 0 - nth k (L Hexahedron_Linear xi) 0 = s * der Hexahedron_Linear k j xi) ->
  val f xi' c - val f xi c = s * dif f xi j c.
Proof.
  intros H. unfold val, dif. rewrite <- Rsum_minus, <- Rsum_scal_l. apply Rsum_ext. intros k Hk. apply in_seq in Hk. rewrite <- Rmult_minus_distr_l, H by lia. ring.
Qed.

(** The spin at an integration point *)
Definition gradient_at (xi : list R) := displacement_gradient d v row xi.
Definition spin_at (xi : list R) : vec := fun i => match i with O => entries (gradient_at xi) 2 1 | 1%nat => entries (gradient_at xi) 0 2 | _ => entries (gradient_at xi) 1 0 end.
Lemma turned a b c j : (j < 3)%nat -> same (dif V [sg a; sg b; sg c] j) (spin (spin_at [sg a; sg b; sg c]) (dif X [sg a; sg b; sg c] j)).
Proof.
  intros Hj. destruct (gauss_in a b c) as (q & Hq & Eq). rewrite <- HK in Hq. pose proof (SF row q Hr Hq) as S0. rewrite Eq in S0.
  pose proof (proj1 (Forall_forall _ _) (proj1 (Forall_forall _ _) RG row Hr) q Hq) as N. cbv beta in N. unfold local_volume in N. rewrite Eq in N.
  set (xi := [sg a; sg b; sg c]) in *. fold (gradient_at xi) in S0.
  assert (MJ : matrix3 (jacobian 3 (kind d) (nodes_of_element d row) xi)).
  { rewrite <- Eq. change (nodes_of_element d row) with (gather (positions d) row). rewrite (jacobian_entries d row q); [apply of_entries_matrix3|apply Sd|rewrite HK; exact row8]. }
  assert (P : forall i, (i < 3)%nat -> dif V xi j i = sum3 (fun l => entries (gradient_at xi) i l * dif X xi j l)).
  { intros i Hi. unfold V. rewrite <- dif_entries by assumption. rewrite <- (product_inverse _ _ i j MJ N Hi Hj). unfold gradient_at, displacement_gradient. apply sum3_ext. intros l Hl.
    change (nodes_of_element d row) with (gather (positions d) row) at 2. rewrite dif_entries by assumption. reflexivity. }
  assert (K : forall p r, (p < 3)%nat -> (r < 3)%nat -> entries (gradient_at xi) p r = - entries (gradient_at xi) r p) by (intros p r Hp Hr'; pose proof (strain_zero _ p r S0 Hp Hr'); lra).
  assert (D0 : entries (gradient_at xi) 0 0 = 0) by (pose proof (K 0%nat 0%nat ltac:(lia) ltac:(lia)); lra).
  assert (D1 : entries (gradient_at xi) 1 1 = 0) by (pose proof (K 1%nat 1%nat ltac:(lia) ltac:(lia)); lra).
  assert (D2 : entries (gradient_at xi) 2 2 = 0) by (pose proof (K 2%nat 2%nat ltac:(lia) ltac:(lia)); lra).
  intros i Hi. rewrite (P i Hi). unfold sum3, spin, motion, spin_at. destruct i as [|[|[|]]]; try lia.
  - rewrite D0, (K 0%nat 1%nat) by lia. ring.
  - rewrite D1, (K 1%nat 2%nat) by lia. ring.
  - rewrite D2, (K 2%nat 0%nat) by lia. ring.
Qed.

Let x (a b c : bool) : vec := val X [sg a; sg b; sg c].
Let u (a b c : bool) : vec := val V [sg a; sg b; sg c].
Let w (a b c : bool) : vec := spin_at [sg a; sg b; sg c].

Lemma joined s (p q p' q' o o' e f : vec) : (forall i, q' i - q i = s * f i) -> (forall i, p' i - p i = s * e i) -> same f (spin o e) -> same f (spin o' e) -> edge p q o p' q' o'.
Proof.
  intros Q P F F'. split; intros i Hi; [specialize (F i Hi)|specialize (F' i Hi); rename F' into F0; rename F into F'; rename F0 into F];
  unfold sub; rewrite Q, F; unfold spin, motion; rewrite !P; destruct i as [|[|[|]]]; try lia; ring.
Qed.
Lemma moved0 f u0 u0' v0 w0 i : val f [u0'; v0; w0] i - val f [u0; v0; w0] i = (u0' - u0) * dif f [u0; v0; w0] 0 i.
Proof. apply value_along. intros k Hk. apply along0. exact Hk. Qed.
Lemma moved1 f u0 v0 v0' w0 i : val f [u0; v0'; w0] i - val f [u0; v0; w0] i = (v0' - v0) * dif f [u0; v0; w0] 1 i.
Proof. apply value_along. intros k Hk. apply along1. exact Hk. Qed.
Lemma moved2 f u0 v0 w0 w0' i : val f [u0; v0; w0'] i - val f [u0; v0; w0] i = (w0' - w0) * dif f [u0; v0; w0] 2 i.
Proof. apply value_along. intros k Hk. apply along2. exact Hk. Qed.
Lemma edges_x a b c : edge (x a b c) (u a b c) (w a b c) (x (negb a) b c) (u (negb a) b c) (w (negb a) b c).
Proof.
  apply (joined (sg (negb a) - sg a)) with (e := dif X [sg a; sg b; sg c] 0) (f := dif V [sg a; sg b; sg c] 0);
  [intros i; apply moved0|intros i; apply moved0|apply turned; lia|]. exact (turned (negb a) b c 0 ltac:(lia)).
Qed.
Lemma edges_y a b c : edge (x a b c) (u a b c) (w a b c) (x a (negb b) c) (u a (negb b) c) (w a (negb b) c).
Proof.
  apply (joined (sg (negb b) - sg b)) with (e := dif X [sg a; sg b; sg c] 1) (f := dif V [sg a; sg b; sg c] 1);
  [intros i; apply moved1|intros i; apply moved1|apply turned; lia|]. exact (turned a (negb b) c 1 ltac:(lia)).
Qed.
Lemma edges_z a b c : edge (x a b c) (u a b c) (w a b c) (x a b (negb c)) (u a b (negb c)) (w a b (negb c)).
Proof.
  apply (joined (sg (negb c) - sg c)) with (e := dif X [sg a; sg b; sg c] 2) (f := dif V [sg a; sg b; sg c] 2);
  [intros i; apply moved2|intros i; apply moved2|apply turned; lia|]. exact (turned a b (negb c) 2 ltac:(lia)).
Qed.
Lemma corners a b c : triple (sub (x (negb a) b c) (x a b c)) (sub (x a (negb b) c) (x a b c)) (sub (x a b (negb c)) (x a b c)) <> 0.
Proof.
  destruct (gauss_in a b c) as (q & Hq & Eq). rewrite <- HK in Hq.
  pose proof (proj1 (Forall_forall _ _) (proj1 (Forall_forall _ _) RG row Hr) q Hq) as N. cbv beta in N. unfold local_volume in N. rewrite Eq in N.
  assert (MJ : matrix3 (jacobian 3 (kind d) (nodes_of_element d row) [sg a; sg b; sg c])).
  { rewrite <- Eq. change (nodes_of_element d row) with (gather (positions d) row). rewrite (jacobian_entries d row q); [apply of_entries_matrix3|apply Sd|rewrite HK; exact row8]. }
  rewrite (det_entries _ MJ) in N. intros Z. apply N. unfold det3. change (nodes_of_element d row) with (gather (positions d) row). rewrite !dif_entries by lia. fold X.
  unfold triple, sub, x in Z. rewrite !moved0, !moved1, !moved2 in Z.
  assert (S : (sg (negb a) - sg a) * ((sg (negb b) - sg b) * (sg (negb c) - sg c)) <> 0) by (repeat apply Rmult_integral_contrapositive_currified; apply sg_negb).
  apply (Rmult_eq_reg_l ((sg (negb a) - sg a) * ((sg (negb b) - sg b) * (sg (negb c) - sg c)))); [|exact S]. rewrite Rmult_0_r, <- Z. ring.
Qed.

Lemma one_spin : open_corner d row -> exists o, forall a b c, same (w a b c) o.
Proof.
  intros (a & b & c & O1 & O2 & O3). exists (w a b c).
  assert (T : forall a1 b1 c1 a2 b2 c2 a3 b3 c3 a4 b4 c4, opens (integration_point d row a1 b1 c1) (integration_point d row a2 b2 c2) (integration_point d row a3 b3 c3) (integration_point d row a4 b4 c4) ->
    opening (x a1 b1 c1) (x a2 b2 c2) (x a3 b3 c3) (x a4 b4 c4)).
  { intros a1 b1 c1 a2 b2 c2 a3 b3 c3 a4 b4 c4 O al be H. apply O.
    assert (L3 : forall p q r, length (integration_point d row p q r) = 3%nat) by (intros; unfold integration_point, world_coordinates, interpolate; rewrite map_length; apply seq_length).
    assert (W : forall p q r, integration_point d row p q r = [x p q r 0%nat; x p q r 1%nat; x p q r 2%nat]).
    { intros p q r. unfold x. rewrite <- !val_world by lia. destruct (length3 _ (L3 p q r)) as (e0 & e1 & e2 & ->). reflexivity. }
    rewrite !W. unfold vminus, vadd, vscale. cbn [map2 map].
    pose proof (H 0%nat ltac:(lia)) as H0. pose proof (H 1%nat ltac:(lia)) as H1. pose proof (H 2%nat ltac:(lia)) as H2. unfold sub in H0, H1, H2.
    rewrite H0, H1, H2. reflexivity. }
  exact (cube_spin x u w edges_x edges_y edges_z corners a b c (T _ _ _ _ _ _ _ _ _ _ _ _ O1) (T _ _ _ _ _ _ _ _ _ _ _ _ O2) (T _ _ _ _ _ _ _ _ _ _ _ _ O3)).
Qed.

(** With a single spin, the rest of the motion is constant. *)
Lemma hexahedron_rigid : open_corner d row -> exists t o, forall p, In p row -> moves t o (X p) (V p).
Proof.
  intros O. destruct (one_spin O) as [o Ho].
  set (Y := fun p i => V p i - spin o (X p) i).
  assert (DY : forall xi j i, (i < 3)%nat -> dif Y xi j i = dif V xi j i - spin o (dif X xi j) i).
  { intros xi j i Hi. unfold dif. transitivity (Rsum (map (fun k => V (node k) i * der Hexahedron_Linear k j xi - spin o (X (node k)) i * der Hexahedron_Linear k j xi) (seq 0 8))).
    - apply Rsum_ext. intros k Hk. unfold Y. ring.
    - rewrite Rsum_minus. f_equal. unfold spin, motion. destruct i as [|[|[|]]]; try lia;
      rewrite <- !Rsum_scal_l, <- Rsum_minus, Rplus_0_l; apply Rsum_ext; intros k Hk; ring. }
  assert (Z : forall a b c j i, (j < 3)%nat -> (i < 3)%nat -> dif Y [sg a; sg b; sg c] j i = 0).
  { intros a b c j i Hj Hi. rewrite DY by exact Hi. rewrite (turned a b c j Hj i Hi). pose proof (Ho a b c) as H. fold (w a b c). unfold spin, motion.
    destruct i as [|[|[|]]]; try lia; rewrite !H by lia; ring. }
  assert (Z' : forall xi j i, length xi = 3%nat -> (j < 3)%nat -> (i < 3)%nat -> dif Y xi j i = 0).
  { intros xi j i Lx Hj Hi. destruct (spread Hexahedron_Linear xi ltac:(unfold full; cbn; tauto) Lx) as [ls S].
    transitivity (Rsum (map2 (fun l g => l * dif Y (fst g) j i) ls (gauss_nodes Hexahedron_Linear))).
    - unfold dif at 1. rewrite (Rsum_ext _ _ (fun k => Rsum (map2 (fun l g => l * (Y (node k) i * der Hexahedron_Linear k j (fst g))) ls (gauss_nodes Hexahedron_Linear)))).
      2:{ intros k Hk. apply in_seq in Hk. rewrite (S k j) by (cbn [NumberOfNodes]; lia). symmetry. apply map2_scal. }
      unfold dif. induction (seq 0 8) as [|k l IH].
      + cbn [map Rsum fold_right]. symmetry. apply (map2_zero _ (fun _ => 0)). reflexivity.
      + cbn [map Rsum fold_right]. change (fold_right Rplus 0) with Rsum. rewrite IH. symmetry. apply map2_plus.
    - apply map2_zero. intros g Hg. destruct (gauss_all g Hg) as (a & b & c & ->). apply Z; assumption. }
  assert (K : forall i xi, (i < 3)%nat -> length xi = 3%nat -> val Y xi i = val Y [0; 0; 0] i).
  { intros i xi Hi Lx. destruct (length3 _ Lx) as (p & q & r & ->).
    pose proof (moved0 Y 0 p q r i) as M0. pose proof (moved1 Y 0 0 q r i) as M1. pose proof (moved2 Y 0 0 0 r i) as M2. rewrite Z' in M0, M1, M2 by (reflexivity || lia). lra. }
  exists (fun i => val Y [0; 0; 0] i), o. intros p Hp i Hi. apply (In_nth row p 0%nat) in Hp. destruct Hp as (k & Hk & <-). rewrite row8 in Hk. fold (node k).
  assert (C : length (nth k (canonical_nodes Hexahedron_Linear) []) = 3%nat).
  { do 8 (destruct k as [|k]; [reflexivity|]). lia. }
  assert (E : val Y (nth k (canonical_nodes Hexahedron_Linear) []) i = Y (node k) i).
  { unfold val. rewrite (Rsum_ext _ _ (fun b => if Nat.eqb k b then Y (node b) i else 0)).
    - rewrite (Rsum_delta (fun b => Y (node b) i)) by exact Hk. reflexivity.
    - intros b Hb. apply in_seq in Hb. rewrite kronecker by (cbn [NumberOfNodes]; lia). destruct (Nat.eq_dec b k) as [-> |N].
      + rewrite Nat.eqb_refl. ring.
      + rewrite (proj2 (Nat.eqb_neq k b)) by congruence. ring. }
  rewrite (K i _ Hi C) in E. unfold Y in E at 2. unfold motion. unfold spin, motion in E. destruct i as [|[|[|]]]; try lia; lra.
Qed.
End Hexahedron.

(** Parallelepipeds have open corners. *)
Lemma independent_columns (e f h : vec) s t : triple e f h <> 0 -> (forall i, (i < 3)%nat -> s * e i + t * f i = 0) -> s = 0 /\ t = 0.
Proof.
  intros N H. pose proof (H 0%nat ltac:(lia)) as H0. pose proof (H 1%nat ltac:(lia)) as H1. pose proof (H 2%nat ltac:(lia)) as H2. split.
  - assert (Z : s * triple e f h = 0).
    { transitivity ((s * e 0%nat + t * f 0%nat) * (f 1%nat * h 2%nat - f 2%nat * h 1%nat) - (s * e 1%nat + t * f 1%nat) * (f 0%nat * h 2%nat - f 2%nat * h 0%nat) + (s * e 2%nat + t * f 2%nat) * (f 0%nat * h 1%nat - f 1%nat * h 0%nat));
      [unfold triple; ring|rewrite H0, H1, H2; ring]. }
    apply Rmult_integral in Z. destruct Z as [Z|Z]; [exact Z|contradiction].
  - assert (Z : t * triple e f h = 0).
    { transitivity (- ((s * e 0%nat + t * f 0%nat) * (e 1%nat * h 2%nat - e 2%nat * h 1%nat) - (s * e 1%nat + t * f 1%nat) * (e 0%nat * h 2%nat - e 2%nat * h 0%nat) + (s * e 2%nat + t * f 2%nat) * (e 0%nat * h 1%nat - e 1%nat * h 0%nat)));
      [unfold triple; ring|rewrite H0, H1, H2; ring]. }
    apply Rmult_integral in Z. destruct Z as [Z|Z]; [exact Z|contradiction].
Qed.
Lemma column_open (e f h A : vec) p q r p' q' : triple e f h <> 0 -> p' - p <> 0 -> q' - q <> 0 ->
  let at' (s t : R) := [A 0%nat + (s * e 0%nat + t * f 0%nat + r * h 0%nat); A 1%nat + (s * e 1%nat + t * f 1%nat + r * h 1%nat); A 2%nat + (s * e 2%nat + t * f 2%nat + r * h 2%nat)] in
  opens (at' p q) (at' p' q) (at' p' q') (at' p q').
Proof.
  intros N Np Nq at' s t H. unfold at', vminus, vadd, vscale in H. cbn [map2 map] in H. injection H as H0 H1 H2.
  destruct (independent_columns e f h ((p' - p) * (1 - s)) ((q' - q) * (1 - t)) N) as [Z1 Z2].
  - intros i Hi. destruct i as [|[|[|]]]; try lia; lra.
  - apply Rmult_integral in Z1. destruct Z1 as [Z1|Z1]; [contradiction|]. apply Rmult_integral in Z2. destruct Z2 as [Z2|Z2]; [contradiction|]. lra.
Qed.
Lemma straight_open d row x0 E : solid d -> regular d -> kind d = Hexahedron_Linear -> In row (connectivity d) ->
  affine_element 3 (kind d) (nodes_of_element d row) x0 E -> open_corner d row.
Proof.
  intros Sd RG HK Hr AF. assert (HF : full (kind d)) by (rewrite HK; unfold full; cbn; tauto).
  pose proof (E_volume d row x0 E Sd RG HF Hr AF) as N. pose proof (E_matrix d row x0 E Sd AF) as ME. rewrite (det_entries _ ME) in N.
  destruct AF as (_ & Lx & W). rewrite HK in W. cbn [CanonicalDimension] in W. destruct (length3 _ Lx) as (a0 & a1 & a2 & ->).
  destruct ME as [LE FE]. destruct E as [|r0 [|r1 [|r2 [|]]]]; try discriminate. apply Forall_cons_iff in FE. destruct FE as [L0 FE]. apply Forall_cons_iff in FE. destruct FE as [L1 FE].
  apply Forall_cons_iff in FE. destruct FE as [L2 _].
  destruct (length3 _ L0) as (e00 & e01 & e02 & ->), (length3 _ L1) as (e10 & e11 & e12 & ->), (length3 _ L2) as (e20 & e21 & e22 & ->).
  set (e := fun i => nth i [e00; e10; e20] 0). set (f := fun i => nth i [e01; e11; e21] 0). set (h := fun i => nth i [e02; e12; e22] 0). set (A := fun i => nth i [a0; a1; a2] 0).
  assert (T : triple e f h <> 0) by (intros Z; apply N; rewrite <- Z; unfold det3, entries, triple, e, f, h; cbn [nth]; ring).
  assert (P : forall a b c, integration_point d row a b c =
    [A 0%nat + (sg a * e 0%nat + sg b * f 0%nat + sg c * h 0%nat); A 1%nat + (sg a * e 1%nat + sg b * f 1%nat + sg c * h 1%nat); A 2%nat + (sg a * e 2%nat + sg b * f 2%nat + sg c * h 2%nat)]).
  { intros a b c. unfold integration_point. rewrite HK. fold (sg a) (sg b) (sg c). rewrite W by reflexivity. unfold vadd, matvec, dot, A, e, f, h. cbn. repeat (f_equal; try ring). }
  assert (P2 : forall a b c, integration_point d row a b c =
    [A 0%nat + (sg b * f 0%nat + sg c * h 0%nat + sg a * e 0%nat); A 1%nat + (sg b * f 1%nat + sg c * h 1%nat + sg a * e 1%nat); A 2%nat + (sg b * f 2%nat + sg c * h 2%nat + sg a * e 2%nat)]).
  { intros a b c. rewrite P. repeat (f_equal; try ring). }
  assert (P3 : forall a b c, integration_point d row a b c =
    [A 0%nat + (sg a * e 0%nat + sg c * h 0%nat + sg b * f 0%nat); A 1%nat + (sg a * e 1%nat + sg c * h 1%nat + sg b * f 1%nat); A 2%nat + (sg a * e 2%nat + sg c * h 2%nat + sg b * f 2%nat)]).
  { intros a b c. rewrite P. repeat (f_equal; try ring). }
  assert (T2 : triple f h e <> 0) by (replace (triple f h e) with (triple e f h) by (unfold triple; ring); exact T).
  assert (T3 : triple e h f <> 0) by (intros Z; apply T; rewrite <- Ropp_0, <- Z; unfold triple; ring).
  exists false, false, false. cbv zeta. split; [|split].
  - rewrite !P. exact (column_open e f h A (sg false) (sg false) (sg false) (sg (negb false)) (sg (negb false)) T (sg_negb _) (sg_negb _)).
  - rewrite !P2. exact (column_open f h e A (sg false) (sg false) (sg false) (sg (negb false)) (sg (negb false)) T2 (sg_negb _) (sg_negb _)).
  - rewrite !P3. exact (column_open e h f A (sg false) (sg false) (sg false) (sg (negb false)) (sg (negb false)) T3 (sg_negb _) (sg_negb _)).
Qed.

(** All sturdy shapes *)
Lemma sturdy_rigid d v row : solid d -> regular d -> sturdy d -> In row (connectivity d) -> strain_free d v ->
  exists t w, forall p, In p row -> moves t w (entries (positions d) p) (entries v p).
Proof.
  intros Sd RG [[HF HS]|[HK HO]] Hr SF.
  - destruct (HS row Hr) as (x0 & E & AF). apply (affine_rigid d v row x0 E Sd RG); try assumption. destruct HF as [<-|[<-|[]]]; unfold full; cbn; tauto.
  - exact (hexahedron_rigid d v row Sd RG HK Hr SF (HO row Hr)).
Qed.
