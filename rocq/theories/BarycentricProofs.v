(** Proofs about embedded points (C31, C32). *)

From Coq Require Import ZArith Reals Lra Lia.
From Coquelicot Require Import Coquelicot.
From Coq Require Import List.
From Flocq Require Import Core.Raux.
From Verif Require Import GridGeoModel GridGeoSpec HashGridModel HashGridProofs ShapeModel ShapeSpec ShapeProofs ShapeFieldProofs
  ShapeGaussProofs LinAlg RectModel RectSpec RectProofs LinAlgProofs NewtonLocalProofs BarycentricModel BarycentricSpec.
Import ListNotations.
Open Scope R_scope.

(** ** Points of an element are in its bounding box *)
Lemma shape_nonneg : forall e xi, linear_type e -> in_reference e 0 xi -> Forall (fun l => 0 <= l) (L e xi).
Proof.
  intros e xi He [Hl H]. assert (P : forall a b, 0 <= a -> 0 <= b -> 0 <= a * b) by (intros; apply Rmult_le_pos; assumption).
  destruct He as [<-|[<-|[<-|[<-|[<-|[]]]]]]; cbn [simplex] in H; len_xi xi Hl.
  - inversion H; subst. cbv [L Segment_Linear_L Triangle_Linear_L Quad_Linear_L Tetrahedron_Linear_L Hexahedron_Linear_L nth]. repeat (apply Forall_cons || apply Forall_nil); lra.
  - destruct H as [H1 H2]. cbn in H2. repeat match goal with F : Forall _ (_ :: _) |- _ => inversion F; subst; clear F end.
    cbv [L Segment_Linear_L Triangle_Linear_L Quad_Linear_L Tetrahedron_Linear_L Hexahedron_Linear_L nth]. repeat (apply Forall_cons || apply Forall_nil); lra.
  - repeat match goal with F : Forall _ (_ :: _) |- _ => inversion F; subst; clear F end.
    cbv [L Segment_Linear_L Triangle_Linear_L Quad_Linear_L Tetrahedron_Linear_L Hexahedron_Linear_L nth]. repeat (apply Forall_cons || apply Forall_nil); repeat apply P; lra.
  - destruct H as [H1 H2]. cbn in H2. repeat match goal with F : Forall _ (_ :: _) |- _ => inversion F; subst; clear F end.
    cbv [L Segment_Linear_L Triangle_Linear_L Quad_Linear_L Tetrahedron_Linear_L Hexahedron_Linear_L nth]. repeat (apply Forall_cons || apply Forall_nil); lra.
  - repeat match goal with F : Forall _ (_ :: _) |- _ => inversion F; subst; clear F end.
    cbv [L Segment_Linear_L Triangle_Linear_L Quad_Linear_L Tetrahedron_Linear_L Hexahedron_Linear_L nth]. repeat (apply Forall_cons || apply Forall_nil); repeat apply P; lra.
Qed.

Lemma weighted_above : forall (v : list R -> R) x nodes ls, length nodes = length ls -> Forall (fun l => 0 <= l) ls ->
  Forall (fun n => x < v n) nodes ->
  x * Rsum ls <= Rsum (map2 (fun n l => v n * l) nodes ls) /\
  (0 < Rsum ls -> x * Rsum ls < Rsum (map2 (fun n l => v n * l) nodes ls)).
Proof.
  intros v x nodes. induction nodes as [|n nodes IH]; intros [|l ls] HL H0 H; try discriminate; cbn [map2 Rsum fold_right].
  - split; [unfold Rsum; simpl; lra|]. intros C. unfold Rsum in C. simpl in C. lra.
  - inversion H0; subst. inversion H; subst. simpl in HL. injection HL as HL.
    destruct (IH ls HL) as [A B]; [assumption|assumption|]. unfold Rsum in *. cbn [fold_right map2] in *.
    split; [nra|]. intros C. destruct (Req_dec l 0) as [->|N].
    + assert (0 < fold_right Rplus 0 ls) by lra. specialize (B H1). nra.
    + assert (0 < l) by lra. nra.
Qed.
Lemma weighted_below : forall (v : list R -> R) x nodes ls, length nodes = length ls -> Forall (fun l => 0 <= l) ls ->
  Forall (fun n => v n < x) nodes -> 0 < Rsum ls -> Rsum (map2 (fun n l => v n * l) nodes ls) < x * Rsum ls.
Proof.
  intros v x nodes ls HL H0 H HS.
  destruct (weighted_above (fun n => - v n) (- x) nodes ls HL H0) as [_ B].
  - eapply Forall_impl; [|exact H]. simpl. intros. lra.
  - specialize (B HS).
    assert (E : Rsum (map2 (fun n l => - v n * l) nodes ls) = - Rsum (map2 (fun n l => v n * l) nodes ls)).
    { clear. revert ls. induction nodes as [|n nodes IH]; intros [|l ls]; unfold Rsum in *; simpl; try lra. rewrite IH. lra. }
    rewrite E in B. lra.
Qed.

Lemma world_in_box : forall d e nodes xi, linear_type e -> ShapeSpec.table (NumberOfNodes e) d nodes -> in_reference e 0 xi ->
  in_bounding_box nodes (world_coordinates d e nodes xi).
Proof.
  intros d e nodes xi He [Hn Hd] Hr k x Hk. pose proof (shape_nonneg e xi He Hr) as H0. destruct Hr as [Hxi _].
  assert (HS : Rsum (L e xi) = 1) by (apply partition_of_unity; exact Hxi).
  assert (Hkd : (k < d)%nat).
  { rewrite <- (world_length d e nodes xi). apply nth_error_Some. congruence. }
  assert (HL : length nodes = length (L e xi)) by (rewrite length_L; congruence).
  unfold world_coordinates, interpolate in Hk. rewrite nth_error_map in Hk.
  rewrite (nth_error_nth' _ 0%nat) in Hk by (rewrite seq_length; exact Hkd). rewrite seq_nth in Hk by exact Hkd.
  cbn [option_map plus] in Hk. injection Hk as Hk.
  assert (G : forall n, In n nodes -> nth_error n k = Some (nth k n 0)).
  { intros n Hin. apply nth_error_nth'. rewrite (proj1 (Forall_forall _ _) Hd n Hin). exact Hkd. }
  split.
  - destruct (Exists_dec (fun n => nth k n 0 <= x) nodes) as [E|E].
    { intros n. destruct (Rle_dec (nth k n 0) x); [left|right]; assumption. }
    + apply Exists_exists in E. destruct E as (n & Hin & Hle). exists n, (nth k n 0). auto.
    + exfalso. destruct (weighted_above (fun n => nth k n 0) x nodes (L e xi) HL H0) as [_ B].
      * apply Forall_forall. intros n Hin. apply Rnot_le_lt. intros C. apply E. apply Exists_exists. exists n. auto.
      * rewrite HS in B. specialize (B ltac:(lra)). lra.
  - destruct (Exists_dec (fun n => x <= nth k n 0) nodes) as [E|E].
    { intros n. destruct (Rle_dec x (nth k n 0)); [left|right]; assumption. }
    + apply Exists_exists in E. destruct E as (n & Hin & Hle). exists n, (nth k n 0). auto.
    + exfalso. pose proof (weighted_below (fun n => nth k n 0) x nodes (L e xi) HL H0) as B.
      rewrite HS in B.
      assert (F : Forall (fun n => nth k n 0 < x) nodes).
      { apply Forall_forall. intros n Hin. apply Rnot_le_lt. intros C. apply E. apply Exists_exists. exists n. auto. }
      specialize (B F ltac:(lra)). lra.
Qed.

(** ** Cell size *)
Lemma constant_nodes_world : forall d e nodes xi xi', ShapeSpec.table (NumberOfNodes e) d nodes ->
  (forall n n', In n nodes -> In n' nodes -> n = n') -> length xi = CanonicalDimension e -> length xi' = CanonicalDimension e ->
  world_coordinates d e nodes xi = world_coordinates d e nodes xi'.
Proof.
  intros d e nodes xi xi' [Hn Hd] Hc Hxi Hxi'. unfold world_coordinates, interpolate. apply map_ext. intros c.
  assert (G : forall x ls, length nodes = length ls -> (forall n, In n nodes -> nth c n 0 = x) ->
     Rsum (map2 (fun row l => nth c row 0 * l) nodes ls) = x * Rsum ls).
  { clear. intros x. induction nodes as [|n nodes IH]; intros [|l ls] HL H; try discriminate; unfold Rsum in *; simpl; [lra|].
    rewrite (H n) by (left; reflexivity). rewrite IH; [lra|simpl in HL; congruence|]. intros m Hm. apply H. right. exact Hm. }
  set (n0 := nth 0 nodes []).
  rewrite !(G (nth c n0 0)); try (rewrite length_L; congruence).
  - rewrite !partition_of_unity by assumption. reflexivity.
  - intros n Hin. f_equal. apply Hc; [exact Hin|]. unfold n0. destruct nodes; [contradiction|left; reflexivity].
  - intros n Hin. f_equal. apply Hc; [exact Hin|]. unfold n0. destruct nodes; [contradiction|left; reflexivity].
Qed.

Lemma nodes_positive : forall e, (0 < NumberOfNodes e)%nat.
Proof. intros []; simpl; lia. Qed.

Lemma table_valid : forall e d nodes, ShapeSpec.table (NumberOfNodes e) d nodes -> valid_element d nodes.
Proof.
  intros e d nodes [Hn Hd]. split; [|exact Hd]. intros ->. simpl in Hn. pose proof (nodes_positive e). lia.
Qed.

Lemma element_size_spec : forall d nodes, valid_element d nodes ->
  length (element_size nodes) = d /\ Forall (fun x => 0 <= x) (element_size nodes) /\
  ((exists k, 0 < nth k (element_size nodes) 0) \/ forall n n', In n nodes -> In n' nodes -> n = n').
Proof.
  intros d nodes V. unfold element_size, vminus.
  pose proof (colwise_length d Rmin nodes V) as L1. pose proof (colwise_length d Rmax nodes V) as L2.
  assert (LL : length (map2 Rminus (colwise Rmax nodes) (colwise Rmin nodes)) = d) by (rewrite map2_length; congruence).
  split; [exact LL|].
  assert (N : forall k, (k < d)%nat -> nth_error (map2 Rminus (colwise Rmax nodes) (colwise Rmin nodes)) k =
                Some (nth k (colwise Rmax nodes) 0 - nth k (colwise Rmin nodes) 0)).
  { clear -L1 L2. revert d L1 L2. generalize (colwise Rmax nodes), (colwise Rmin nodes). induction l as [|a l IH]; intros [|b m] d L1 L2 k Hk; simpl in *; subst; try lia; try discriminate.
    destruct k; [reflexivity|]. simpl. apply (IH m (length m)); [reflexivity|congruence|lia]. }
  assert (Emin : forall k, (k < d)%nat -> nth_error (colwise Rmin nodes) k = Some (nth k (colwise Rmin nodes) 0)) by (intros; apply nth_error_nth'; lia).
  assert (Emax : forall k, (k < d)%nat -> nth_error (colwise Rmax nodes) k = Some (nth k (colwise Rmax nodes) 0)) by (intros; apply nth_error_nth'; lia).
  assert (P : forall k, (k < d)%nat -> 0 <= nth k (colwise Rmax nodes) 0 - nth k (colwise Rmin nodes) 0).
  { intros k Hk. destruct (colwise_min_spec d nodes k _ V (Emin k Hk)) as (_ & m & Hm & Em).
    destruct (colwise_max_spec d nodes k _ V (Emax k Hk)) as (B & _). specialize (B m _ Hm Em). lra. }
  split.
  - apply Forall_forall. intros x Hx. destruct (In_nth_error _ _ Hx) as (k & Hk).
    assert (k < d)%nat by (rewrite <- LL; apply nth_error_Some; congruence).
    rewrite N in Hk by assumption. injection Hk as <-. apply P. assumption.
  - destruct (Exists_dec (fun k => 0 < nth k (map2 Rminus (colwise Rmax nodes) (colwise Rmin nodes)) 0) (seq 0 d)) as [E|E].
    { intros k. destruct (Rlt_dec 0 (nth k (map2 Rminus (colwise Rmax nodes) (colwise Rmin nodes)) 0)); [left|right]; assumption. }
    + left. apply Exists_exists in E. destruct E as (k & _ & Hk). exists k. exact Hk.
    + right. intros n n' Hn Hn'. destruct V as [V1 V2].
      assert (Ln := proj1 (Forall_forall _ _) V2 n Hn). assert (Ln' := proj1 (Forall_forall _ _) V2 n' Hn'). simpl in Ln, Ln'.
      apply (list_eq_nth _ 0); [congruence|]. intros k Hk. rewrite Ln in Hk.
      assert (Z0 : nth k (colwise Rmax nodes) 0 <= nth k (colwise Rmin nodes) 0).
      { apply Rnot_lt_le. intros C. apply E. apply Exists_exists. exists k. split; [apply in_seq; lia|].
        rewrite (nth_error_nth _ _ _ (N k Hk)). lra. }
      destruct (colwise_min_spec d nodes k _ (conj V1 V2) (Emin k Hk)) as (A & _).
      destruct (colwise_max_spec d nodes k _ (conj V1 V2) (Emax k Hk)) as (B & _).
      assert (En : nth_error n k = Some (nth k n 0)) by (apply nth_error_nth'; lia).
      assert (En' : nth_error n' k = Some (nth k n' 0)) by (apply nth_error_nth'; lia).
      pose proof (A n _ Hn En). pose proof (A n' _ Hn' En'). pose proof (B n _ Hn En). pose proof (B n' _ Hn' En'). lra.
Qed.

Lemma fold_vadd_ge : forall sizes acc d k, length acc = d ->
  Forall (fun s => length s = d /\ Forall (fun x => 0 <= x) s) sizes ->
  nth k acc 0 <= nth k (fold_left vadd sizes acc) 0 /\ length (fold_left vadd sizes acc) = d.
Proof.
  induction sizes as [|s sizes IH]; intros acc d k Ha H; simpl; [split; [lra|exact Ha]|].
  inversion H as [|? ? [Hs Hp] H']; subst. destruct (IH (vadd acc s) (length acc) k) as [A B].
  - apply vadd_length. congruence.
  - rewrite <- Hs in *. exact H'.
  - split; [|exact B]. eapply Rle_trans; [|exact A].
    destruct (Nat.lt_ge_cases k (length acc)) as [C|C].
    + rewrite nth_vadd by (congruence || exact C). assert (0 <= nth k s 0) by (apply (proj1 (Forall_forall _ _) Hp); apply nth_In; lia). lra.
    + rewrite !nth_overflow; [lra|rewrite vadd_length by congruence; lia|exact C].
Qed.

Lemma maxCoeff_ge : forall v k, (k < length v)%nat -> nth k v 0 <= maxCoeff v.
Proof.
  assert (F : forall v x, x <= fold_left Rmax v x /\ forall k, (k < length v)%nat -> nth k v 0 <= fold_left Rmax v x).
  { induction v as [|y v IH]; intros x; simpl; [split; [lra|intros; lia]|].
    destruct (IH (Rmax x y)) as [A B]. pose proof (Rmax_l x y). pose proof (Rmax_r x y). split; [lra|].
    intros [|k] Hk; [lra|]. apply B. lia. }
  intros [|x v] k Hk; simpl in *; [lia|]. destruct (F v x) as [A B]. destruct k; [exact A|]. apply B. lia.
Qed.

(** ** The container *)
Section Container.
  Variable d : domain.
  Hypothesis HD : affine_domain d.

  Lemma elements_length : length (elements d) = length (connectivity d).
  Proof. unfold elements. apply map_length. Qed.

  Lemma element_table : forall nodes, In nodes (elements d) -> ShapeSpec.table (NumberOfNodes (kind d)) (dim d) nodes.
  Proof.
    intros nodes H. destruct HD as (_ & HP & HC & _). unfold elements in H. apply in_map_iff in H. destruct H as (row & <- & Hr).
    apply (proj1 (Forall_forall _ _) HC) in Hr. destruct Hr as [R1 R2]. unfold nodes_of_element. split; [rewrite map_length; exact R1|].
    apply Forall_forall. intros p Hp. apply in_map_iff in Hp. destruct Hp as (i & <- & Hi).
    apply (proj1 (Forall_forall _ _) HP). apply nth_In. apply (proj1 (Forall_forall _ _) R2). exact Hi.
  Qed.

  Lemma element_affine : forall nodes, In nodes (elements d) ->
    exists x0 E, affine_element (dim d) (kind d) nodes x0 E /\ independent (CanonicalDimension (kind d)) E.
  Proof. intros nodes H. destruct HD as (_ & _ & _ & HA). exact (proj1 (Forall_forall _ _) HA nodes H). Qed.

  Lemma element_not_flat : forall nodes, In nodes (elements d) -> exists k, 0 < nth k (element_size nodes) 0.
  Proof.
    intros nodes H. pose proof (element_table nodes H) as HT.
    destruct (element_size_spec (dim d) nodes (table_valid _ _ _ HT)) as (_ & _ & [P|C]); [exact P|exfalso].
    destruct (element_affine nodes H) as (x0 & E & HA & HI).
    set (k := CanonicalDimension (kind d)) in *.
    assert (L1 : length (repeat 0 k) = k) by apply repeat_length. assert (L2 : length (repeat 1 k) = k) by apply repeat_length.
    pose proof (constant_nodes_world (dim d) (kind d) nodes (repeat 0 k) (repeat 1 k) HT C L1 L2) as W.
    assert (P : forall y, 0 * 0 <= squared_distance (dim d) (kind d) nodes y (repeat 0 k)).
    { intros y. rewrite Rmult_0_l. rewrite <- residual_is_distance. apply squaredNorm_nonneg. }
    pose proof (newton_affine_exact (dim d) (kind d) nodes x0 E (repeat 0 k) 0 1 (repeat 0 k) HT HA HI L1 L1 (P _)) as N0.
    pose proof (newton_affine_exact (dim d) (kind d) nodes x0 E (repeat 0 k) 0 1 (repeat 1 k) HT HA HI L1 L2 (P _)) as N1.
    rewrite <- W, N0 in N1. pose proof (canonical_dimension_range (kind d)). fold k in H0. destruct k; [lia|]. simpl in N1. injection N1. lra.
  Qed.

  Lemma cell_size_positive : connectivity d <> [] -> 0 < maxCoeff (H_mean d).
  Proof.
    intros Hne. pose proof elements_length as EL. destruct (elements d) as [|e0 es] eqn:Ee.
    { simpl in EL. destruct (connectivity d); [congruence|discriminate]. }
    assert (In0 : In e0 (elements d)) by (rewrite Ee; left; reflexivity).
    destruct (element_not_flat e0 In0) as (k & Hk).
    assert (V0 : valid_element (dim d) e0) by (eapply table_valid; apply element_table; exact In0).
    destruct (element_size_spec (dim d) e0 V0) as (L0 & P0 & _).
    assert (Hkd : (k < dim d)%nat).
    { destruct (Nat.lt_ge_cases k (dim d)) as [C|C]; [exact C|]. rewrite nth_overflow in Hk by lia. lra. }
    assert (LR : length (repeat 0 (dim d)) = dim d) by apply repeat_length.
    destruct (fold_vadd_ge (map element_size es) (vadd (repeat 0 (dim d)) (element_size e0)) (dim d) k) as [A B].
    - rewrite vadd_length by congruence. exact LR.
    - apply Forall_forall. intros s Hs. apply in_map_iff in Hs. destruct Hs as (nodes & <- & Hn).
      assert (Hin : In nodes (elements d)) by (rewrite Ee; right; exact Hn).
      destruct (element_size_spec (dim d) nodes) as (X & Y & _); [eapply table_valid; apply element_table; exact Hin|]. auto.
    - rewrite nth_vadd in A by (congruence || lia). rewrite nth_repeat in A.
      assert (PN : 0 < INR (length (connectivity d))) by (apply lt_0_INR; rewrite <- EL; simpl; lia).
      eapply Rlt_le_trans; [|apply (maxCoeff_ge _ k)].
      + unfold H_mean. rewrite Ee. simpl fold_left.
        rewrite (nth_indep _ 0 (0 / INR (length (connectivity d)))) by (rewrite map_length, B; exact Hkd).
        rewrite (map_nth (fun x => x / INR (length (connectivity d)))). apply Rdiv_lt_0_compat; [|exact PN]. simpl in A. lra.
      + unfold H_mean. rewrite Ee, map_length. simpl fold_left. rewrite B. exact Hkd.
  Qed.

  Definition history : list (list (list R) * Z) := combine (elements d) (map Z.of_nat (seq 0 (length (connectivity d)))).

  Lemma history_in : forall nodes id, In (nodes, id) history <->
    exists i, (i < length (connectivity d))%nat /\ id = Z.of_nat i /\ nodes = nth i (elements d) [].
  Proof.
    intros nodes id. unfold history. rewrite <- elements_length. generalize (elements d). intros es.
    assert (G : forall es s, In (nodes, id) (combine es (map Z.of_nat (seq s (length es)))) <->
       exists i, (i < length es)%nat /\ id = Z.of_nat (s + i) /\ nodes = nth i es []).
    { clear. induction es as [|e es IH]; intros s; simpl.
      - split; [intros []|intros (i & Hi & _); lia].
      - rewrite IH. split.
        + intros [E|(i & Hi & -> & ->)].
          * injection E as <- <-. exists 0%nat. rewrite Nat.add_0_r. split; [lia|]. auto.
          * exists (S i). split; [lia|]. split; [f_equal; lia|reflexivity].
        + intros ([|i] & Hi & -> & ->).
          * left. rewrite Nat.add_0_r. reflexivity.
          * right. exists i. split; [lia|]. split; [f_equal; lia|reflexivity]. }
    apply (G es 0%nat).
  Qed.

  Lemma history_valid : Forall (fun op => fst op <> [] /\ Forall (fun n => length n = dim d) (fst op)) history.
  Proof.
    apply Forall_forall. intros [nodes id] H. apply history_in in H. destruct H as (i & Hi & _ & ->). simpl.
    apply (table_valid (kind d)). apply element_table. apply nth_In. rewrite elements_length. exact Hi.
  Qed.

  Lemma build_spec : connectivity d <> [] -> build d = Some (maxCoeff (H_mean d), run (maxCoeff (H_mean d)) history).
  Proof. intros H. unfold build. destruct (connectivity d) eqn:E; [congruence|]. unfold history. rewrite E. reflexivity. Qed.

  (** Candidates are elements. *)
  Lemma candidates : forall p id, connectivity d <> [] -> length p = dim d ->
    In id (get (maxCoeff (H_mean d)) (run (maxCoeff (H_mean d)) history) p) ->
    exists i, (i < length (connectivity d))%nat /\ id = Z.of_nat i.
  Proof.
    intros p id Hne Hp H.
    destruct (hash_sound (dim d) _ history p id (cell_size_positive Hne) history_valid Hp H) as (nodes & Hin & _).
    apply history_in in Hin. destruct Hin as (i & Hi & -> & _). exists i. auto.
  Qed.

  Lemma linear_not_rectangular : kind d <> RectangularQuad_Linear /\ kind d <> RectangularQuad_Quadratic.
  Proof. destruct HD as (HK & _). destruct HK as [<-|[<-|[<-|[<-|[<-|[]]]]]]; split; discriminate. Qed.

  Lemma zero_in_reference : in_reference (kind d) 0 (repeat 0 (CanonicalDimension (kind d))).
  Proof.
    destruct HD as (HK & _). split; [apply repeat_length|].
    destruct HK as [<-|[<-|[<-|[<-|[<-|[]]]]]]; cbn; repeat split; repeat (apply Forall_cons || apply Forall_nil); lra.
  Qed.

  (** The local coordinates of a point of the element are accepted. *)
  Lemma local_accepted : forall i p, point_of_element d i p ->
    contains_local (kind d) (local_coordinates (dim d) (kind d) (nth i (elements d) []) p) 1e-10 = Some true.
  Proof.
    intros i p (Hi & xi & Hxi & ->). destruct linear_not_rectangular as [N1 N2].
    assert (Hin : In (nth i (elements d) []) (elements d)) by (apply nth_In; rewrite elements_length; exact Hi).
    destruct (element_affine _ Hin) as (x0 & E & HA & HI). pose proof (element_table _ Hin) as HT.
    set (nodes := nth i (elements d) []) in *. set (k := CanonicalDimension (kind d)) in *.
    assert (L1 : length (repeat 0 k) = k) by apply repeat_length.
    destruct (Rlt_le_dec (squared_distance (dim d) (kind d) nodes (world_position d i xi) (repeat 0 k)) (1e-5 * 1e-5)) as [C|C].
    - unfold local_coordinates, local_coordinates_from. rewrite residual_is_distance.
      fold k. rewrite Rlt_bool_true by exact C. apply contains_closed; try assumption; try lra. apply zero_in_reference.
    - unfold local_coordinates, world_position. fold nodes k.
      rewrite (newton_affine_exact (dim d) (kind d) nodes x0 E (repeat 0 k) 1e-5 5 xi HT HA HI L1 (proj1 Hxi) C).
      apply contains_closed; try assumption; try lra. exact (proj1 Hxi).
  Qed.

  (** The local coordinates of any point. *)
  Lemma local_position : forall i p, volumetric d -> (i < length (connectivity d))%nat -> length p = dim d ->
    let xi := local_coordinates (dim d) (kind d) (nth i (elements d) []) p in
    length xi = CanonicalDimension (kind d) /\
    distance_2 p (world_position d i xi) < 1e-10 /\
    (1e-10 <= distance_2 p (world_position d i (repeat 0 (CanonicalDimension (kind d)))) -> world_position d i xi = p).
  Proof.
    intros i p HV Hi Hp xi.
    assert (Hin : In (nth i (elements d) []) (elements d)) by (apply nth_In; rewrite elements_length; exact Hi).
    destruct (element_affine _ Hin) as (x0 & E & HA & HI). pose proof (element_table _ Hin) as HT.
    unfold world_position. set (nodes := nth i (elements d) []) in *. set (k := CanonicalDimension (kind d)) in *.
    assert (L1 : length (repeat 0 k) = k) by apply repeat_length.
    pose proof (canonical_dimension_range (kind d)) as Hk. fold k in Hk.
    (* the pre-image *)
    assert (X : exists eta, length eta = k /\ world_coordinates (dim d) (kind d) nodes eta = p).
    { destruct HA as ((HE & HEk) & Hx0 & Haff). unfold volumetric in HV. fold k in HV, HEk, Haff.
      assert (SE : square k E) by (split; [congruence|exact HEk]).
      assert (DE : det E <> 0). { unfold independent in HI. fold k in HI. rewrite (gram_det_square k E Hk SE) in HI. intros C. rewrite C in HI. lra. }
      exists (matvec (inverse E) (vminus p x0)). assert (LI : length (matvec (inverse E) (vminus p x0)) = k) by (rewrite matvec_length; apply (inverse_rows k); assumption).
      split; [exact LI|]. rewrite Haff by exact LI. rewrite (matvec_inverse k); try assumption.
      - apply vadd_vminus. congruence.
      - rewrite vminus_length by congruence. congruence. }
    destruct X as (eta & Leta & Eeta).
    change (distance_2 p (world_coordinates (dim d) (kind d) nodes xi)) with (squared_distance (dim d) (kind d) nodes p xi).
    change (distance_2 p (world_coordinates (dim d) (kind d) nodes (repeat 0 k))) with (squared_distance (dim d) (kind d) nodes p (repeat 0 k)).
    unfold xi. destruct (Rlt_le_dec (squared_distance (dim d) (kind d) nodes p (repeat 0 k)) (1e-5 * 1e-5)) as [C|C].
    - assert (EX : local_coordinates (dim d) (kind d) nodes p = repeat 0 k).
      { unfold local_coordinates, local_coordinates_from. rewrite residual_is_distance. fold k. rewrite Rlt_bool_true by exact C. reflexivity. }
      rewrite EX. rewrite tolerance_square in C. split; [exact L1|]. split; [exact C|]. intros C'. lra.
    - assert (EX : local_coordinates (dim d) (kind d) nodes p = eta).
      { unfold local_coordinates. fold k. rewrite <- Eeta in C |- *.
        exact (newton_affine_exact (dim d) (kind d) nodes x0 E (repeat 0 k) 1e-5 5 eta HT HA HI L1 Leta C). }
      rewrite EX. split; [exact Leta|]. split; [|intros _; exact Eeta].
      unfold squared_distance. rewrite Eeta.
      replace (Rsum (map2 (fun a b => (a - b) * (a - b)) p p)) with 0; [lra|].
      clear. induction p; unfold Rsum in *; simpl; [reflexivity|]. rewrite <- IHp. lra.
  Qed.

  Lemma first_containing_spec : forall p ids, let bp := first_containing d p ids in
    (bp = ((-1)%Z, repeat 0 (CanonicalDimension (kind d))) /\
     forall id, In id ids -> contains_local (kind d) (local_coordinates (dim d) (kind d) (nth (Z.to_nat id) (elements d) []) p) 1e-10 <> Some true) \/
    (In (fst bp) ids /\ snd bp = local_coordinates (dim d) (kind d) (nth (Z.to_nat (fst bp)) (elements d) []) p /\
     contains_local (kind d) (snd bp) 1e-10 = Some true).
  Proof.
    intros p ids. induction ids as [|id ids IH]; simpl; [left; split; [reflexivity|intros ? []]|].
    destruct (contains_local (kind d) (local_coordinates (dim d) (kind d) (nth (Z.to_nat id) (elements d) []) p) 1e-10) as [[]|] eqn:E.
    - right. simpl. split; [left; reflexivity|]. split; [reflexivity|exact E].
    - destruct IH as [[A B]|(A & B & C)]; [left|right].
      + split; [exact A|]. intros id' [<-|H]; [congruence|apply B; exact H].
      + split; [right; exact A|]. split; assumption.
    - destruct IH as [[A B]|(A & B & C)]; [left|right].
      + split; [exact A|]. intros id' [<-|H]; [congruence|apply B; exact H].
      + split; [right; exact A|]. split; assumption.
  Qed.

  Lemma barycentric_point_spec : forall grid p, build d = Some grid -> length p = dim d ->
    let bp := barycentric_point d grid p in
    (bp = ((-1)%Z, repeat 0 (CanonicalDimension (kind d))) /\ forall i, ~ point_of_element d i p) \/
    (exists i, (i < length (connectivity d))%nat /\ fst bp = Z.of_nat i /\
       snd bp = local_coordinates (dim d) (kind d) (nth i (elements d) []) p /\
       contains_local (kind d) (snd bp) 1e-10 = Some true).
  Proof.
    intros grid p HB Hp bp. assert (Hne : connectivity d <> []) by (intros C; unfold build in HB; rewrite C in HB; discriminate).
    rewrite (build_spec Hne) in HB. injection HB as <-. unfold bp, barycentric_point. cbn [fst snd].
    set (ids := get _ _ p) in *.
    destruct (first_containing_spec p ids) as [[A B]|(A & B & C)].
    - left. split; [exact A|]. intros i Hi. assert (Hin : In (Z.of_nat i) ids).
      { unfold ids. destruct Hi as (Hi & xi & Hxi & ->).
        assert (In0 : In (nth i (elements d) []) (elements d)) by (apply nth_In; rewrite elements_length; exact Hi).
        apply (hash_complete (dim d) _ history _ (nth i (elements d) [])).
        - apply cell_size_positive. exact Hne.
        - apply history_valid.
        - apply world_length.
        - apply history_in. exists i. auto.
        - apply world_in_box; [exact (proj1 HD)|apply element_table; exact In0|exact Hxi]. }
      apply (B _ Hin). rewrite Nat2Z.id. apply local_accepted. exact Hi.
    - right. destruct (candidates p _ Hne Hp A) as (i & Hi & Ei). exists i. split; [exact Hi|]. split; [exact Ei|].
      rewrite Ei, Nat2Z.id in B. split; [exact B|exact C].
  Qed.
End Container.

(** ** All the points *)
Lemma push_points : forall d grid nodes c,
  barycentric_points (fold_left (push_point d grid) nodes c) =
    barycentric_points c ++ map (fun n => barycentric_point d grid (snd n)) nodes /\
  outside_nodes (fold_left (push_point d grid) nodes c) =
    outside_nodes c ++ map fst (filter (fun n => (fst (barycentric_point d grid (snd n)) <? 0)%Z) nodes).
Proof.
  intros d grid nodes. induction nodes as [|n nodes IH]; intros c; simpl; [rewrite !app_nil_r; auto|].
  destruct (IH (push_point d grid c n)) as [A B]. rewrite A, B. unfold push_point. cbn [barycentric_points outside_nodes].
  split; [rewrite <- app_assoc; reflexivity|].
  destruct (fst (barycentric_point d grid (snd n)) <? 0)%Z; [rewrite <- app_assoc|]; reflexivity.
Qed.

Lemma combine_seq_map : forall (A B : Type) (f : A -> B) (l : list A) s,
  map (fun n => f (snd n)) (combine (seq s (length l)) l) = map f l.
Proof. intros A B f l. induction l; intros s; simpl; [reflexivity|]. f_equal. apply IHl. Qed.

Lemma in_combine_seq : forall (A : Type) (l : list A) s i x, In (i, x) (combine (seq s (length l)) l) <->
  (s <= i)%nat /\ nth_error l (i - s) = Some x.
Proof.
  intros A l. induction l as [|a l IH]; intros s i x; simpl.
  - split; [intros []|]. intros [_ H]. destruct (i - s)%nat; discriminate.
  - rewrite IH. split.
    + intros [E|[H1 H2]].
      * injection E as <- <-. split; [lia|]. rewrite Nat.sub_diag. reflexivity.
      * split; [lia|]. replace (i - s)%nat with (S (i - S s)) by lia. exact H2.
    + intros [H1 H2]. destruct (i - s)%nat as [|n] eqn:E.
      * left. simpl in H2. injection H2 as ->. f_equal. lia.
      * right. split; [lia|]. replace (i - S s)%nat with n by lia. exact H2.
Qed.

Lemma embed_points : forall d points c, embed d points = Some c ->
  exists grid, build d = Some grid /\ barycentric_points c = map (barycentric_point d grid) points /\
    forall i, In i (outside_nodes c) <->
      exists p, nth_error points i = Some p /\ (fst (barycentric_point d grid p) < 0)%Z.
Proof.
  intros d points c H. unfold embed in H. destruct (build d) as [grid|]; [|discriminate]. injection H as <-. exists grid.
  split; [reflexivity|]. unfold set_embedded_points.
  destruct (push_points d grid (combine (seq 0 (length points)) points) {| barycentric_points := []; outside_nodes := [] |}) as [A B].
  rewrite A, B. cbn [barycentric_points outside_nodes app]. split; [apply combine_seq_map|].
  intros i. rewrite in_map_iff. split.
  - intros ([j p] & E & Hin). simpl in E. subst j. apply filter_In in Hin. destruct Hin as [Hin Hneg].
    apply in_combine_seq in Hin. destruct Hin as [_ Hn]. rewrite Nat.sub_0_r in Hn. exists p. split; [exact Hn|]. apply Z.ltb_lt. exact Hneg.
  - intros (p & Hn & Hneg). exists (i, p). split; [reflexivity|]. apply filter_In. split; [|apply Z.ltb_lt; exact Hneg].
    apply in_combine_seq. split; [lia|]. rewrite Nat.sub_0_r. exact Hn.
Qed.
