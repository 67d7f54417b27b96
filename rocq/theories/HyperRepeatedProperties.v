(** C56 for meshes whose elements may refer several times to the same node (a hexahedron collapsed to a wedge, for instance). *)

From Coq Require Import ZArith Reals Lra Lia Psatz.
From Coquelicot Require Import Coquelicot.
From Coq Require Import List Arith Bool.
From Verif Require Import GridGeoModel ShapeModel ShapeSpec ShapeProofs ShapeFieldProofs LinAlg LinAlgProofs RectModel BarycentricModel MappingSpec MappingProofs TensorModel TensorSpec
  MaterialModel MaterialSpec MaterialProofs SparseModel SparseProofs Sums TractionModel TractionProofs HyperModel HyperSpec HyperProofs HyperProofs2 HyperProofs3 HyperProofs4 HyperProperties.
Import ListNotations.
Open Scope R_scope.

(** The coefficients (c, c) of the blocks (a, b) of the element matrices, a < b, where a and b are the same node p. *)
Definition counted_once (m : material) (d : domain) (x : list (list R)) (p c : nat) : R :=
  Rsum (map (fun row => Rsum (map (fun a => Rsum (map (fun b =>
      if (Nat.eqb (nth a row 0%nat) p && Nat.eqb (nth b row 0%nat) p)%bool
      then e (element_block m (gather x row) (get_gauss_nodes d (nodes_of_element d row)) a b) c c else 0)
      (seq (a + 1) (length row - (a + 1))))) (seq 0 (length row)))) (connectivity d)).

Lemma element_triplets_sum_any m d x row phi : length row = NumberOfNodes (kind d) ->
  tsum (element_triplets m d x row) (mirror phi) =
  Rsum (map (fun a => Rsum (map (fun b => full_block m d x row phi a b) (seq 0 (length row)))) (seq 0 (length row))) -
  Rsum (map (fun a => Rsum (map (fun b => if Nat.eqb (nth a row 0%nat) (nth b row 0%nat) then
      sum3 (fun i => entries (block m d x row a b) i i * phi (nth a row 0 * 3 + i)%nat (nth a row 0 * 3 + i)%nat) else 0)
    (seq (a + 1) (length row - (a + 1))))) (seq 0 (length row))).
Proof.
  intros Hl. rewrite <- triangle_sum, <- Rsum_minus. unfold element_triplets. fold (quad d row). rewrite tsum_flat_map. apply Rsum_ext. intros a Ha. apply in_seq in Ha.
  rewrite tsum_app. unfold Rminus. rewrite Rplus_assoc. f_equal.
  - assert (SY : forall i j, (i < 3)%nat -> (j < 3)%nat -> entries (block m d x row a a) i j = entries (block m d x row a a) j i)
      by (intros; apply block_symmetric; auto; lia).
    unfold tsum. fold (block m d x row a a). set (Kaa := block m d x row a a) in *. set (r := (nth a row 0 * 3)%nat).
    cbn [seq flat_map map app Nat.sub]. cbn [Rsum fold_right row_of col_of value_of fst snd]. unfold mirror.
    rewrite !Nat.eqb_refl. rewrite !(proj2 (Nat.eqb_neq _ _)) by lia.
    unfold full_block, sum3. fold Kaa r. rewrite (SY 1%nat 0%nat), (SY 2%nat 0%nat), (SY 2%nat 1%nat) by lia. unfold e, entries. ring.
  - rewrite tsum_flat_map. match goal with |- _ = ?u + - ?v => change (u + - v) with (u - v) end. rewrite <- Rsum_minus. apply Rsum_ext. intros b Hb. apply in_seq in Hb.
    fold (block m d x row a b). unfold tsum. destruct (Nat.eqb_spec (nth a row 0%nat) (nth b row 0%nat)) as [E|NE].
    + unfold full_block, sum3. rewrite <- E. set (ra := (nth a row 0 * 3)%nat).
      cbn [seq flat_map map app]. cbn [Rsum fold_right row_of col_of value_of fst snd]. unfold mirror.
      rewrite !Nat.eqb_refl. rewrite !(proj2 (Nat.eqb_neq _ _)) by lia.
      rewrite !(block_symmetric m d x row b a) by lia. unfold e, entries. ring.
    + set (ra := (nth a row 0 * 3)%nat). set (rb := (nth b row 0 * 3)%nat).
      assert (NR : (ra + 3 <= rb \/ rb + 3 <= ra)%nat) by (unfold ra, rb; lia).
      cbn [seq flat_map map app]. cbn [Rsum fold_right row_of col_of value_of fst snd]. unfold mirror.
      rewrite !(proj2 (Nat.eqb_neq _ _)) by lia.
      unfold full_block, sum3. fold ra rb. rewrite !(block_symmetric m d x row b a) by lia. unfold e, entries. ring.
Qed.

Lemma operator_row_any m d x v N p c : well_formed d -> field N 3 v -> (c < 3)%nat ->
  tsum (assemble_stiffness m d x) (mirror (fun a b => if Nat.eqb a (p * 3 + c) then nth b (concat v) 0 else 0)) =
  Rsum (map (fun row => Rsum (map (fun a => if Nat.eqb (nth a row 0%nat) p then
     Rsum (map (fun b => sum3 (fun k => entries (block m d x row a b) c k * entries v (nth b row 0%nat) k)) (seq 0 (length row))) else 0)
     (seq 0 (length row)))) (connectivity d)) - counted_once m d x p c * entries v p c.
Proof.
  intros WF [Lv Fv] Hc. unfold counted_once. rewrite <- Rsum_scal_r, <- Rsum_minus.
  rewrite assemble_alt, tsum_flat_map. apply Rsum_ext. intros row Hrow.
  rewrite element_triplets_sum_any by apply (proj1 (Forall_forall _ _) WF row Hrow).
  assert (T : forall i, (i < 3)%nat -> Nat.eqb (p * 3 + i) (p * 3 + c) = Nat.eqb i c).
  { intros i Hi. destruct (Nat.eqb_spec i c) as [-> |Hn]; [apply Nat.eqb_refl|]. apply Nat.eqb_neq. lia. }
  f_equal.
  - apply Rsum_ext. intros a _.
    rewrite (Rsum_ext _ _ (fun b => if Nat.eqb (nth a row 0%nat) p then sum3 (fun k => entries (block m d x row a b) c k * entries v (nth b row 0%nat) k) else 0)).
    + destruct (Nat.eqb (nth a row 0%nat) p); [reflexivity|]. apply Rsum_zero. reflexivity.
    + intros b _. unfold full_block. destruct (Nat.eqb_spec (nth a row 0%nat) p) as [E|E].
      * rewrite E. unfold sum3. rewrite !T by lia. rewrite !concat_nth by (first [exact Fv | lia]).
        destruct c as [|[|[|]]]; try lia; cbn [Nat.eqb]; ring.
      * unfold sum3. rewrite !(proj2 (Nat.eqb_neq _ _)) by lia. ring.
  - rewrite <- Rsum_scal_r. apply Rsum_ext. intros a _. rewrite <- Rsum_scal_r. apply Rsum_ext. intros b _.
    fold (quad d row). fold (block m d x row a b). change (e (block m d x row a b) c c) with (entries (block m d x row a b) c c).
    destruct (Nat.eqb_spec (nth a row 0%nat) p) as [E|E]; cbn [andb].
    + rewrite E, (Nat.eqb_sym p). destruct (Nat.eqb (nth b row 0%nat) p); [|ring].
      unfold sum3. rewrite !T by lia. rewrite !concat_nth by (first [exact Fv | lia]).
      destruct c as [|[|[|]]]; try lia; cbn [Nat.eqb]; ring.
    + destruct (Nat.eqb _ _); [|ring]. unfold sum3. rewrite !(proj2 (Nat.eqb_neq _ _)) by lia. ring.
Qed.

(** For every mesh, what addDForce adds: k times the derivative of the forces, and an error for the nodes that an element repeats. *)
Theorem C56_force_increment_repeated_nodes :
  forall m d x v f k DF, solid d -> regular d -> not_inverted d x ->
    field (length (positions d)) 3 x -> field (length (positions d)) 3 v -> field (length (positions d)) 3 f ->
    length DF = (length (positions d) * 3)%nat ->
    exists (g : R -> list (list R)) DF',
      (forall t, addForce m d (displaced x v t) f = Some (g t)) /\
      addDForce (assemble_stiffness m d x) (length (positions d) * 3) k (concat v) DF = Some DF' /\
      length DF' = length DF /\
      forall node c, (node < length (positions d))%nat -> (c < 3)%nat -> exists D,
        is_derive (fun t => nth c (nth node (g t) []) 0) 0 D /\
        nth (node * 3 + c) DF' 0 = nth (node * 3 + c) DF 0 + k * (D + counted_once m d x node c * nth c (nth node v []) 0).
Proof.
  intros m d x v f k DF S RG NI Fx Fv Ff LD. set (N := length (positions d)) in *.
  set (g := fun t => match addForce m d (displaced x v t) f with Some r => r | None => [] end).
  assert (A : forall t, addForce m d (displaced x v t) f = Some (g t) /\ forall p c, (c < 3)%nat -> entries (g t) p c = entries f p c -
      Rsum (map (fun row => Rsum (map (fun a => if Nat.eqb (nth a row 0%nat) p then entries (element_forces m (gather (displaced x v t) row) (quad d row)) a c else 0)
                                      (seq 0 (NumberOfNodes (kind d))))) (connectivity d))).
  { intros t. destruct (addForce_spec m d (displaced x v t) f N (proj1 S) eq_refl (proj1 (displaced_field N x v t Fx Fv)) Ff) as (f' & E & _ & P).
    unfold g. rewrite E. split; [reflexivity|exact P]. }
  destruct (addDForce_spec (assemble_stiffness m d x) (N * 3) k (concat v) DF (assemble_inside m d x N (proj1 S) eq_refl) LD) as (DF' & E & L & P).
  exists g, DF'. split; [intros t; apply A|]. split; [exact E|]. split; [congruence|]. intros p c Hp Hc.
  exists (- Rsum (map (fun row => Rsum (map (fun a => if Nat.eqb (nth a row 0%nat) p then
     Rsum (map (fun b => sum3 (fun k => entries (block m d x row a b) c k * entries v (nth b row 0%nat) k)) (seq 0 (length row))) else 0)
     (seq 0 (length row)))) (connectivity d))). split.
  - apply (is_derive_ext (fun t => entries f p c -
      Rsum (map (fun row => Rsum (map (fun a => if Nat.eqb (nth a row 0%nat) p then entries (element_forces m (gather (displaced x v t) row) (quad d row)) a c else 0)
                                      (seq 0 (NumberOfNodes (kind d))))) (connectivity d)))).
    { intros t. symmetry. exact (proj2 (A t) p c Hc). }
    evar_last.
    + apply (is_derive_minus (fun _ => entries f p c)); [apply @is_derive_const|].
      apply (is_derive_sum _ (connectivity d)). intros row Hr. destruct (solid_row d row S Hr) as [Hl _]. rewrite <- Hl.
      apply (is_derive_sum _ (seq 0 (length row)) (fun a t => if Nat.eqb (nth a row 0%nat) p then entries (element_forces m (gather (displaced x v t) row) (quad d row)) a c else 0)).
      intros a Ha. apply in_seq in Ha. instantiate (1 := fun a => if Nat.eqb (nth a row 0%nat) p then
        Rsum (map (fun b => sum3 (fun k => entries (block m d x row a b) c k * entries v (nth b row 0%nat) k)) (seq 0 (length row))) else 0).
      cbv beta. destruct (Nat.eqb (nth a row 0%nat) p); [|apply @is_derive_const].
      apply (is_derive_ext (fun t => Rsum (map (fun g => entries (gauss_forces m (gather (displaced x v t) row) g) a c) (quad d row)))).
      { intros t. destruct (element_forces_spec m (gather (displaced x v t) row) (quad d row) (NumberOfNodes (kind d))) as (_ & _ & Q).
        - unfold gather. rewrite map_length. exact Hl. - apply quad_sound. - symmetry. apply Q. }
      evar_last.
      * apply (is_derive_sum _ (quad d row)). intros q Hq. apply (gauss_force_derive m N x v row q Fx Fv).
        -- rewrite Hl. exact (proj1 (Forall_forall _ _) (quad_sound d row) q Hq).
        -- exact (quad_positive d x row q S NI Hr Hq).
        -- lia.
        -- exact Hc.
      * rewrite (Rsum_swap _ _ (fun q b => sum3 (fun k => entries (gauss_block m (gather x row) a b q) c k * entries v (nth b row 0%nat) k))).
        apply Rsum_ext. intros b Hb. apply in_seq in Hb. unfold sum3. rewrite !Rsum_plus, !Rsum_scal_r.
        rewrite !(block_spec m d x row a b) by (first [exact Hl | lia]). reflexivity.
    + match goal with |- minus ?a ?b = - ?c => transitivity (0 - b); [reflexivity|]; transitivity (0 - c); [|ring]; apply f_equal end.
      apply Rsum_ext. intros row Hr. reflexivity.
  - rewrite P. rewrite (operator_row_any m d x v N p c (proj1 S) Fv Hc). unfold entries. ring.
Qed.
Print Assumptions C56_force_increment_repeated_nodes.

(** ** A hexahedron with an edge collapsed to one node *)

Definition wedge_row : list nat := [0; 0; 1; 2; 3; 4; 5; 6]%nat.
Definition wedge : domain :=
  {| dim := 3; kind := Hexahedron_Linear;
     positions := [[-1; -1; -1]; [1; 1; -1]; [-1; 1; -1]; [-1; -1; 1]; [1; -1; 1]; [1; 1; 1]; [-1; 1; 1]];
     connectivity := [wedge_row] |}.
(** mu = 1 and lambda = 10. *)
Definition rubber : material := before_update SaintVenantKirchhoff (32 / 11) (5 / 11).
Lemma rubber_mu : mu rubber = 1.
Proof. unfold rubber, before_update. cbn [mu]. field. Qed.
Lemma rubber_lambda : lambda rubber = 10.
Proof. unfold rubber, before_update. cbn [lambda]. field. Qed.

Lemma wedge_solid : solid wedge.
Proof. split; [|split]; [repeat constructor; cbn; lia|reflexivity|split; [reflexivity|repeat constructor]]. Qed.

Definition scale (v w : R) : R := 1 - (1 - v) * (1 - w) / 4.
Definition wedge_J (u v w : R) : list (list R) :=
  [[scale v w; (1 + u) * (1 - w) / 4; (1 + u) * (1 - v) / 4]; [0; 1; 0]; [0; 0; 1]].
Lemma wedge_jacobian u v w : jacobian 3 Hexahedron_Linear (nodes_of_element wedge wedge_row) [u; v; w] = wedge_J u v w.
Proof. unfold wedge_J, scale. cbn. repeat (apply f_equal2; [|try reflexivity]); try field; repeat (apply f_equal2; [|try reflexivity]); try field. Qed.
Lemma wedge_det u v w : det (wedge_J u v w) = scale v w.
Proof. unfold wedge_J. cbn. ring. Qed.

(** The Gauss points. *)
Definition at_gauss (u : R) : Prop := 1/3 = u * u /\ - (3/5) < u < 3/5.
Lemma gauss_cases g : In g (gauss_nodes Hexahedron_Linear) -> exists u v w, g = ([u; v; w], 1) /\ at_gauss u /\ at_gauss v /\ at_gauss w.
Proof.
  assert (S3 : sqrt 3 * sqrt 3 = 3) by (apply sqrt_sqrt; lra). assert (P3 : 0 < sqrt 3) by (apply sqrt_lt_R0; lra).
  assert (B3 : 5/3 < sqrt 3) by nra.
  assert (H1 : at_gauss (1 / sqrt 3)).
  { split; [field_simplify; [|lra..]; replace (sqrt 3 ^ 2) with 3 by (simpl; lra); lra|]. split.
    - apply Rlt_trans with 0; [lra|]. apply Rdiv_lt_0_compat; lra.
    - apply Rmult_lt_reg_r with (sqrt 3); [lra|]. replace (1 / sqrt 3 * sqrt 3) with 1 by (field; lra). lra. }
  assert (H2 : at_gauss (-1 / sqrt 3)).
  { replace (-1 / sqrt 3) with (- (1 / sqrt 3)) by (field; lra). destruct H1 as [Q [A B]]. split; [rewrite Q; ring|lra]. }
  unfold gauss_nodes, Hexahedron_Linear_gauss. cbn [In]. intros H.
  repeat (destruct H as [H|H]; [subst g; do 3 eexists; split; [reflexivity|]; repeat split; (apply H1 || apply H2)|]). destruct H.
Qed.
Lemma scale_positive v w : at_gauss v -> at_gauss w -> 9/25 <= scale v w <= 1.
Proof. intros [_ [A B]] [_ [C D]]. unfold scale. split; nra. Qed.

Lemma wedge_volume g : In g (gauss_nodes Hexahedron_Linear) -> 0 < local_volume wedge wedge_row (fst g).
Proof.
  intros H. destruct (gauss_cases g H) as (u & v & w & -> & Hu & Hv & Hw). unfold local_volume. cbn [fst]. change (kind wedge) with Hexahedron_Linear.
  rewrite wedge_jacobian, wedge_det. pose proof (scale_positive v w Hv Hw). lra.
Qed.
Lemma wedge_regular : regular wedge.
Proof. constructor; [|constructor]. apply Forall_forall. intros g H. pose proof (wedge_volume g H). lra. Qed.
Lemma wedge_not_inverted : not_inverted wedge (positions wedge).
Proof.
  constructor; [|constructor]. apply Forall_forall. intros g H. change (moved wedge (positions wedge)) with wedge.
  pose proof (wedge_volume g H). apply Rmult_lt_0_compat; assumption.
Qed.
Lemma wedge_field : field (length (positions wedge)) 3 (positions wedge).
Proof. apply wedge_solid. Qed.

(** Derivatives of the first two shape functions. *)
Lemma wedge_derivatives u v w : scale v w <> 0 ->
  let q := (1 - v) * (1 - w) / 4 in let a := scale v w in
  let g := the_node wedge wedge_row ([u; v; w], 1) in
  nth 0 (dN_dx g) [] = [- q / (2 * a); (1 - w) / 8 * (- (1 - u) + (1 + u) * q / a); (1 - v) / 8 * (- (1 - u) + (1 + u) * q / a)] /\
  nth 1 (dN_dx g) [] = [q / (2 * a); - (1 - w) / 8 * (1 + u) / a; - (1 - v) / 8 * (1 + u) / a].
Proof.
  intros N q a g. unfold g, the_node, rest_J. cbn [dN_dx fst]. change (kind wedge) with Hexahedron_Linear. rewrite wedge_jacobian.
  unfold q, a, wedge_J in *. clear q a g. set (s := scale v w) in *. assert (Es : s = 1 - (1 - v) * (1 - w) / 4) by reflexivity. clearbody s.
  cbn. split; repeat (apply f_equal2; [|try reflexivity]).
  all: field_simplify_eq; [|exact N || (split; [exact N|lra])..].
  all: rewrite ?Es; field.
Qed.

Lemma wedge_block_entry u v w : at_gauss u -> at_gauss v -> at_gauss w ->
  entries (gauss_block rubber (gather (positions wedge) wedge_row) 0 1 (the_node wedge wedge_row ([u; v; w], 1))) 0 0 < 0.
Proof.
  intros Hu Hv Hw. pose proof (scale_positive v w Hv Hw) as SP. assert (N : scale v w <> 0) by lra.
  assert (RJ : rest_J wedge wedge_row ([u; v; w], 1) = wedge_J u v w) by (unfold rest_J; apply wedge_jacobian).
  assert (NZ : det (rest_J wedge wedge_row ([u; v; w], 1)) <> 0) by (rewrite RJ, wedge_det; exact N).
  destruct (gauss_block_spec rubber (gather (positions wedge) wedge_row) (the_node wedge wedge_row ([u; v; w], 1)) 8 0 1) as [_ E];
    [reflexivity|apply (the_node_sound wedge wedge_row ([u; v; w], 1))|lia|lia|].
  rewrite E by lia. clear E.
  assert (F1 : of_entries (grad 8 (entries (gather (positions wedge) wedge_row)) (entries (dN_dx (the_node wedge wedge_row ([u; v; w], 1))))) = Id3).
  { change Id3 with (of_entries delta). apply of_entries_ext. intros i j Hi Hj.
    apply (rest_gradient wedge wedge_row ([u; v; w], 1)); first [exact NZ | reflexivity | assumption]. }
  rewrite F1. destruct (wedge_derivatives u v w N) as [D0 D1]. unfold entries at 1 2. rewrite D0, D1. cbn [jacobian_determinant weight the_node snd].
  rewrite RJ, wedge_det, Rabs_pos_eq by lra.
  set (q := (1 - v) * (1 - w) / 4). set (a := scale v w) in *. assert (Ea : a = 1 - q) by reflexivity.
  unfold geometric, material_block, PK2_stress, PK2_stress_jacobian. change (kind_of rubber) with SaintVenantKirchhoff. cbv iota.
  unfold elasticity_matrix. rewrite rubber_mu, rubber_lambda.
  match goal with |- ?x < 0 => replace x with
    (- (3 * q * q) / a + (1 - u * u) / 64 * ((1 - w) * (1 - w) + (1 - v) * (1 - v)) - (1 + u) * (1 + u) * q / (64 * a) * ((1 - w) * (1 - w) + (1 - v) * (1 - v))) end.
  2:{ cbn. unfold trace, sum3, sum6, delta, entries. cbn. field. exact N. }
  destruct Hu as [Qu [U1 U2]], Hv as [_ [V1 V2]], Hw as [_ [W1 W2]]. rewrite <- Qu.
  set (V := 1 - v) in *. set (X := 1 - w) in *. assert (BV : 2/5 < V) by (unfold V; lra). assert (BX : 2/5 < X) by (unfold X; lra).
  assert (Q0 : 0 < q) by (unfold q; nra).
  assert (T1 : 3 * q * q <= 3 * q * q / a).
  { apply Rmult_le_reg_r with a; [lra|]. replace (3 * q * q / a * a) with (3 * q * q) by (field; exact N). assert (0 < q * q) by nra. nra. }
  assert (T2 : 0 <= (1 + u) * (1 + u) * q / (64 * a) * (X * X + V * V)).
  { apply Rmult_le_pos; [|nra]. apply Rmult_le_pos; [apply Rmult_le_pos; [nra|lra]|]. left. apply Rinv_0_lt_compat. lra. }
  assert (T3 : (1 - 1/3) / 64 * (X * X + V * V) < 3 * q * q).
  { unfold q. assert (X2 : 4/25 < X * X) by nra. assert (V2' : 4/25 < V * V) by nra. set (A := X * X) in *. set (B2 := V * V) in *.
    replace (3 * (V * X / 4) * (V * X / 4)) with (3 / 16 * (A * B2)) by (unfold A, B2; field). nra. }
  replace (- (3 * q * q) / a) with (- (3 * q * q / a)) by (field; exact N). lra.
Qed.

Definition translation : list (list R) := unit_velocity 0 7.

Lemma wedge_counted_once : counted_once rubber wedge (positions wedge) 0 0 < 0.
Proof.
  unfold counted_once. change (connectivity wedge) with [wedge_row]. cbn [map]. fold (quad wedge wedge_row).
  match goal with |- ?s < 0 => replace s with (entries (block rubber wedge (positions wedge) wedge_row 0 1) 0 0) end.
  - rewrite block_spec by (cbn; lia). unfold quad. rewrite get_gauss_nodes_alt. change (kind wedge) with Hexahedron_Linear.
    rewrite map_map.
    assert (NE : gauss_nodes Hexahedron_Linear <> []) by discriminate.
    assert (G : forall g, In g (gauss_nodes Hexahedron_Linear) ->
      entries (gauss_block rubber (gather (positions wedge) wedge_row) 0 1 (the_node wedge wedge_row g)) 0 0 < 0).
    { intros g Hg. destruct (gauss_cases g Hg) as (u & v & w & -> & Hu & Hv & Hw). apply wedge_block_entry; assumption. }
    revert NE G. generalize (gauss_nodes Hexahedron_Linear). intros l NE G.
    assert (LE : forall l', incl l' l -> Rsum (map (fun g => entries (gauss_block rubber (gather (positions wedge) wedge_row) 0 1 (the_node wedge wedge_row g)) 0 0) l') <= 0).
    { induction l' as [|g l' IH]; intros I; [cbn; lra|]. cbn [map Rsum fold_right]. change (fold_right Rplus 0) with Rsum.
      pose proof (G g (I g (or_introl eq_refl))). specialize (IH (fun y Hy => I y (or_intror Hy))). lra. }
    destruct l as [|g l]; [congruence|]. cbn [map Rsum fold_right]. change (fold_right Rplus 0) with Rsum.
    pose proof (G g (or_introl eq_refl)). specialize (LE l (fun y Hy => or_intror Hy)). lra.
  - unfold block. set (Kb := element_block rubber (gather (positions wedge) wedge_row) (quad wedge wedge_row)). clearbody Kb.
    unfold wedge_row, e, entries. cbn. ring.
Qed.

(** The mesh is regular and at rest, the displacement a translation; what addDForce adds is not the derivative of the forces. *)
Theorem C56_repeated_node_refuted :
  exists m d v, solid d /\ regular d /\ not_inverted d (positions d) /\ field (length (positions d)) 3 v /\
    forall f k DF, k <> 0 -> field (length (positions d)) 3 f -> length DF = (length (positions d) * 3)%nat ->
    exists (g : R -> list (list R)) DF' D,
      (forall t, addForce m d (displaced (positions d) v t) f = Some (g t)) /\
      addDForce (assemble_stiffness m d (positions d)) (length (positions d) * 3) k (concat v) DF = Some DF' /\
      is_derive (fun t => nth 0 (nth 0 (g t) []) 0) 0 D /\
      nth 0 DF' 0 <> nth 0 DF 0 + k * D.
Proof.
  exists rubber, wedge, translation. assert (Fv : field (length (positions wedge)) 3 translation) by (split; [reflexivity|repeat constructor]).
  split; [exact wedge_solid|]. split; [exact wedge_regular|]. split; [exact wedge_not_inverted|]. split; [exact Fv|].
  intros f k DF Hk Ff LD.
  destruct (C56_force_increment_repeated_nodes rubber wedge (positions wedge) translation f k DF wedge_solid wedge_regular wedge_not_inverted wedge_field Fv Ff LD)
    as (g & DF' & A & B' & _ & P).
  destruct (P 0%nat 0%nat ltac:(cbn; lia) ltac:(lia)) as (D & HD & E). exists g, DF', D.
  split; [exact A|]. split; [exact B'|]. split; [exact HD|].
  change (0 * 3 + 0)%nat with 0%nat in E. change (nth 0 (nth 0 translation []) 0) with 1 in E. rewrite E.
  pose proof wedge_counted_once as W. intros C. assert (Z : k * counted_once rubber wedge (positions wedge) 0 0 = 0) by lra.
  apply Rmult_integral in Z. lra.
Qed.
Print Assumptions C56_repeated_node_refuted.

(** The hypotheses of C56_force_increment_repeated_nodes hold of this mesh. *)
Example C56_repeated_example : exists g DF',
  (forall t, addForce rubber wedge (displaced (positions wedge) translation t) translation = Some (g t)) /\
  addDForce (assemble_stiffness rubber wedge (positions wedge)) 21 1 (concat translation) (concat translation) = Some DF' /\
  exists D, is_derive (fun t => nth 0 (nth 0 (g t) []) 0) 0 D /\ nth 0 DF' 0 < 1 + D.
Proof.
  assert (Fv : field (length (positions wedge)) 3 translation) by (split; [reflexivity|repeat constructor]).
  destruct (C56_force_increment_repeated_nodes rubber wedge (positions wedge) translation translation 1 (concat translation)
    wedge_solid wedge_regular wedge_not_inverted wedge_field Fv Fv eq_refl) as (g & DF' & A & B' & _ & P).
  exists g, DF'. split; [exact A|]. split; [exact B'|]. destruct (P 0%nat 0%nat ltac:(cbn; lia) ltac:(lia)) as (D & HD & E). exists D. split; [exact HD|].
  change (0 * 3 + 0)%nat with 0%nat in E. change (nth 0 (nth 0 translation []) 0) with 1 in E. change (nth 0 (concat translation) 0) with 1 in E.
  rewrite E. pose proof wedge_counted_once. lra.
Qed.
