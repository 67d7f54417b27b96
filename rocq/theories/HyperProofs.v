From Coq Require Import ZArith Reals Lra Lia.
From Coquelicot Require Import Coquelicot.
From Coq Require Import List Arith Bool.
From Verif Require Import GridGeoModel ShapeModel ShapeSpec ShapeProofs ShapeFieldProofs LinAlg LinAlgProofs RectModel BarycentricModel MappingSpec TensorModel TensorSpec
  MaterialModel MaterialSpec MaterialProofs MaterialProperties SparseModel SparseProofs Sums TractionModel TractionProofs HyperModel HyperSpec.
Import ListNotations.
Open Scope R_scope.

(** ** Matrices as functions of their indices *)

Lemma sum3_ext f g : (forall i, (i < 3)%nat -> f i = g i) -> sum3 f = sum3 g.
Proof. intros H. unfold sum3. rewrite !H by lia. reflexivity. Qed.

Lemma is_derive_sum (A : Type) (l : list A) (f : A -> R -> R) (f' : A -> R) t :
  (forall a, In a l -> is_derive (f a) t (f' a)) -> is_derive (fun s => Rsum (map (fun a => f a s) l)) t (Rsum (map f' l)).
Proof.
  induction l as [|a l IH]; intros H; cbn [map Rsum fold_right].
  - apply @is_derive_const.
  - apply (is_derive_plus (f a) (fun s => Rsum (map (fun a => f a s) l))); [apply H; left; reflexivity|].
    apply IH. intros b Hb. apply H. right. exact Hb.
Qed.

(** Sum over the nodes a of X a i * D a j. *)
Definition grad (n : nat) (X D : nat -> nat -> R) : nat -> nat -> R := fun i j => Rsum (map (fun a => X a i * D a j) (seq 0 n)).

Lemma nth_column M i a : nth a (column M i) 0 = entries M a i.
Proof.
  unfold column, entries. destruct (Nat.lt_ge_cases a (length M)) as [H|H].
  - rewrite (nth_indep _ 0 ((fun row => nth i row 0) [])) by (rewrite map_length; exact H). apply (map_nth (fun row => nth i row 0)).
  - rewrite !nth_overflow; [reflexivity|rewrite (nth_overflow M) by exact H; simpl; lia|rewrite map_length; exact H].
Qed.
Lemma vdot_sum a b n : length a = n -> length b = n -> vdot a b = Rsum (map (fun k => nth k a 0 * nth k b 0) (seq 0 n)).
Proof.
  intros <-. revert b. unfold vdot. induction a as [|x a IH]; intros [|y b] H; try discriminate; [reflexivity|].
  cbn [map2 Rsum fold_right map length seq nth]. f_equal. change (fold_right Rplus 0) with Rsum.
  rewrite (IH b) by (injection H as H; exact H). rewrite <- seq_shift, map_map. reflexivity.
Qed.
Lemma vdot_columns nodes dN i j n : length nodes = n -> length dN = n ->
  vdot (column nodes i) (column dN j) = grad n (entries nodes) (entries dN) i j.
Proof.
  intros H1 H2. rewrite (vdot_sum _ _ n) by (unfold column; rewrite map_length; assumption).
  unfold grad. apply Rsum_ext. intros a _. rewrite !nth_column. reflexivity.
Qed.

Lemma deformation_entries nodes dN n : length nodes = n -> length dN = n ->
  deformation nodes dN = of_entries (grad n (entries nodes) (entries dN)).
Proof.
  intros H1 H2. unfold deformation, matmul, transpose. rewrite map_map. unfold of_entries.
  apply map_ext. intros i. apply map_ext. intros j. apply vdot_columns; assumption.
Qed.
Lemma right_cauchy_green_entries F : matrix3 F -> right_cauchy_green F = cauchy_green F.
Proof.
  intros [H1 H2]. unfold right_cauchy_green, matmul, transpose. rewrite map_map. unfold cauchy_green, of_entries.
  apply map_ext. intros i. apply map_ext. intros j. rewrite (vdot_columns F F i j 3) by assumption.
  unfold grad. cbn [seq map Rsum fold_right]. unfold sum3. ring.
Qed.

Lemma stress_matrix3 m J C : matrix3 C -> matrix3 (PK2_stress m J C).
Proof.
  intros H. destruct (kind_of m) eqn:E.
  - rewrite (stress_neo_entries m J C H E). apply of_entries_matrix3.
  - rewrite (stress_svk_entries m J C H E). apply of_entries_matrix3.
Qed.
Lemma stress_symmetric m J C : matrix3 C -> symmetric C -> symmetric (PK2_stress m J C).
Proof.
  intros MC SC i j Hi Hj. destruct (kind_of m) eqn:E.
  - rewrite !stress_neo_entry by assumption. cbn zeta. rewrite (adj_symmetric _ SC i j) by assumption.
    unfold delta. rewrite !(Nat.eqb_sym i j). reflexivity.
  - rewrite !stress_svk_entry by assumption. cbn zeta. cbv beta. rewrite (SC i j) by assumption.
    unfold delta. rewrite !(Nat.eqb_sym i j). reflexivity.
Qed.

Lemma matrix3_cases M : matrix3 M -> exists a b c d e f g h i, M = [[a; b; c]; [d; e; f]; [g; h; i]].
Proof.
  intros [L F]. destruct M as [|r0 [|r1 [|r2 [|]]]]; try discriminate.
  inversion F as [|? ? H0 F0]; subst. inversion F0 as [|? ? H1 F1]; subst. inversion F1 as [|? ? H2 _]; subst.
  destruct r0 as [|? [|? [|? [|]]]]; try discriminate. destruct r1 as [|? [|? [|? [|]]]]; try discriminate.
  destruct r2 as [|? [|? [|? [|]]]]; try discriminate. repeat eexists.
Qed.

(** s F S d *)
Lemma scaled_product F S s dx : matrix3 F -> matrix3 S -> length dx = 3%nat ->
  forall c, (c < 3)%nat -> nth c (matvec (matmul 3 (mscale s F) S) dx) 0 =
    s * sum3 (fun k => entries (product F S) c k * nth k dx 0).
Proof.
  intros MF MS L c Hc. destruct (matrix3_cases F MF) as (? & ? & ? & ? & ? & ? & ? & ? & ? & ->).
  destruct (matrix3_cases S MS) as (? & ? & ? & ? & ? & ? & ? & ? & ? & ->).
  destruct dx as [|? [|? [|? [|]]]]; try discriminate. 
  unfold product, sum3. rewrite !entries_of_entries by lia.
  unfold matvec, matmul, mscale, vscale, vdot, column, entries, Rsum, sum3.
  destruct c as [|[|[|]]]; try lia; cbn; ring.
Qed.
Lemma scaled_product_length F S s dx : matrix3 F -> length (matvec (matmul 3 (mscale s F) S) dx) = 3%nat.
Proof. intros [L _]. unfold matvec, matmul, mscale. rewrite !map_length. exact L. Qed.

(** ** Forces of one element *)

Definition stress_power (m : material) (F : list (list R)) : list (list R) :=
  product F (PK2_stress m (det F) (cauchy_green F)).

Definition rows3 (M : list (list R)) : Prop := Forall (fun r => length r = 3%nat) M.
Definition sound (n : nat) (g : gauss_node) : Prop := length (dN_dx g) = n /\ rows3 (dN_dx g).

Lemma rows3_nth M a : rows3 M -> (a < length M)%nat -> length (nth a M []) = 3%nat.
Proof. intros H Ha. apply (proj1 (Forall_forall _ _) H). apply nth_In. exact Ha. Qed.

Lemma gauss_forces_spec m nodes g n : length nodes = n -> sound n g ->
  length (gauss_forces m nodes g) = n /\ rows3 (gauss_forces m nodes g) /\
  forall a c, (a < n)%nat -> (c < 3)%nat -> entries (gauss_forces m nodes g) a c =
    jacobian_determinant g * weight g *
    sum3 (fun k => entries (stress_power m (of_entries (grad n (entries nodes) (entries (dN_dx g))))) c k * entries (dN_dx g) a k).
Proof.
  intros Ln [Lg Rg]. unfold gauss_forces. rewrite (deformation_entries nodes (dN_dx g) n) by assumption.
  set (F := of_entries (grad n (entries nodes) (entries (dN_dx g)))).
  assert (MF : matrix3 F) by apply of_entries_matrix3.
  rewrite (right_cauchy_green_entries F MF).
  set (S := PK2_stress m (det F) (cauchy_green F)).
  assert (MS : matrix3 S) by apply stress_matrix3, cauchy_green_matrix.
  split; [rewrite map_length; exact Lg|]. split.
  - apply Forall_forall. intros r Hr. apply in_map_iff in Hr. destruct Hr as (dx & <- & _). apply scaled_product_length. exact MF.
  - intros a c Ha Hc. unfold entries at 1.
    rewrite (nth_indep _ [] (matvec (matmul 3 (mscale (jacobian_determinant g * weight g) F) S) []))
      by (rewrite map_length, Lg; exact Ha).
    rewrite (map_nth (fun dx => matvec (matmul 3 (mscale (jacobian_determinant g * weight g) F) S) dx)).
    rewrite scaled_product; [reflexivity|assumption|assumption|apply rows3_nth; [exact Rg|lia]|exact Hc].
Qed.

Lemma map2_vadd_spec A B n : length A = n -> length B = n -> rows3 A -> rows3 B ->
  length (map2 vadd A B) = n /\ rows3 (map2 vadd A B) /\
  forall a c, entries (map2 vadd A B) a c = entries A a c + entries B a c.
Proof.
  intros <-. revert B. induction A as [|x A IH]; intros [|y B] L RA RB; try discriminate.
  - repeat split; [constructor|]. intros [|a] [|c]; unfold entries; simpl; ring.
  - injection L as L. inversion_clear RA as [|? ? Hx RA']. inversion_clear RB as [|? ? Hy RB'].
    destruct (IH B L RA' RB') as (L' & R' & E'). repeat split.
    + cbn [map2 length]. f_equal. exact L'.
    + constructor; [|exact R']. unfold vadd. rewrite map2_length by congruence. exact Hx.
    + intros [|a] c; [|apply E'].
      unfold entries. cbn [map2 nth]. destruct x as [|? [|? [|? [|]]]]; try discriminate. destruct y as [|? [|? [|? [|]]]]; try discriminate.
      destruct c as [|[|[|[|]]]]; simpl; ring.
Qed.

Lemma zeros_entries n a c : entries (repeat (repeat 0 3) n) a c = 0.
Proof.
  unfold entries. assert (H : nth a (repeat (repeat 0 3) n) [] = repeat 0 3 \/ nth a (repeat (repeat 0 3) n) [] = []).
  { destruct (Nat.lt_ge_cases a n) as [H|H].
    - left. apply (@repeat_spec _ n). apply nth_In. rewrite repeat_length. exact H.
    - right. apply nth_overflow. rewrite repeat_length. exact H. }
  destruct H as [-> | ->]; destruct c as [|[|[|[|]]]]; reflexivity.
Qed.

Lemma element_forces_spec m nodes gs n : length nodes = n -> Forall (sound n) gs ->
  length (element_forces m nodes gs) = n /\ rows3 (element_forces m nodes gs) /\
  forall a c, entries (element_forces m nodes gs) a c = Rsum (map (fun g => entries (gauss_forces m nodes g) a c) gs).
Proof.
  intros Ln HS. unfold element_forces. rewrite Ln.
  assert (G : forall gs A, Forall (sound n) gs -> length A = n -> rows3 A ->
    let r := fold_left (fun forces g => map2 vadd forces (gauss_forces m nodes g)) gs A in
    length r = n /\ rows3 r /\ forall a c, entries r a c = entries A a c + Rsum (map (fun g => entries (gauss_forces m nodes g) a c) gs)).
  { clear gs HS. induction gs as [|g gs IH]; intros A HS LA RA; cbn [fold_left].
    - repeat split; auto. intros a c. simpl. ring.
    - inversion_clear HS as [|? ? Sg HS']. destruct (gauss_forces_spec m nodes g n Ln Sg) as (L1 & R1 & _).
      destruct (map2_vadd_spec A (gauss_forces m nodes g) n LA L1 RA R1) as (L2 & R2 & E2).
      destruct (IH _ HS' L2 R2) as (L3 & R3 & E3). repeat split; auto. intros a c. rewrite E3, E2. cbn [map Rsum fold_right].
      change (fold_right Rplus 0) with Rsum. ring. }
  destruct (G gs (repeat (repeat 0 3) n) HS) as (L1 & R1 & E1).
  - apply repeat_length.
  - apply Forall_forall. intros r Hr. apply repeat_spec in Hr. subst r. reflexivity.
  - repeat split; auto. intros a c. rewrite E1, zeros_entries. ring.
Qed.

(** ** Quadrature data *)

Lemma gauss_position_length3 k g : CanonicalDimension k = 3%nat -> In g (gauss_nodes k) -> length (fst g) = 3%nat.
Proof. intros <- H. apply (gauss_position_length k g H). Qed.

Section Quadrature.
Variables (d : domain) (row : list nat) (g : list R * R).
Hypothesis canonical : CanonicalDimension (kind d) = 3%nat.
Hypothesis row_length : length row = NumberOfNodes (kind d).
Let n := NumberOfNodes (kind d).

Lemma jacobian_entries x : jacobian 3 (kind d) (gather x row) (fst g) =
  of_entries (grad n (entries (gather x row)) (entries (dL (kind d) (fst g)))).
Proof.
  unfold jacobian. rewrite canonical. unfold of_entries. apply map_ext. intros i. apply map_ext. intros j.
  unfold grad. rewrite (map2_seq _ _ _ [] [] n);
    [reflexivity|unfold gather; rewrite map_length; exact row_length|apply length_dL].
Qed.

Definition rest_J := jacobian 3 (kind d) (nodes_of_element d row) (fst g).
Definition the_node : gauss_node :=
  {| weight := snd g; jacobian_determinant := Rabs (det rest_J);
     dN_dx := map (matvec (transpose 3 (inverse rest_J))) (dL (kind d) (fst g)) |}.

Lemma the_node_sound : sound n the_node.
Proof.
  split; cbn [dN_dx the_node].
  - rewrite map_length. apply length_dL.
  - apply Forall_forall. intros r Hr. apply in_map_iff in Hr. destruct Hr as (v & <- & _).
    unfold matvec, transpose. rewrite !map_length, seq_length. reflexivity.
Qed.

Lemma rest_J_matrix : matrix3 rest_J.
Proof.
  unfold rest_J. change (nodes_of_element d row) with (gather (positions d) row). rewrite jacobian_entries. apply of_entries_matrix3.
Qed.

Lemma the_node_entries a k : (a < n)%nat -> (k < 3)%nat ->
  entries (dN_dx the_node) a k = sum3 (fun l => entries (dL (kind d) (fst g)) a l * entries (inverse rest_J) l k).
Proof.
  intros Ha Hk. cbn [dN_dx the_node]. unfold entries at 1.
  rewrite (nth_indep _ [] (matvec (transpose 3 (inverse rest_J)) [])) by (rewrite map_length, length_dL; exact Ha).
  rewrite (map_nth (matvec (transpose 3 (inverse rest_J)))). unfold matvec, transpose. rewrite map_map.
  rewrite (nth_indep _ 0 (vdot (column (inverse rest_J) 0) (nth a (dL (kind d) (fst g)) []))) by (rewrite map_length, seq_length; exact Hk).
  rewrite (map_nth (fun i => vdot (column (inverse rest_J) i) (nth a (dL (kind d) (fst g)) []))), seq_nth by exact Hk.
  assert (L : length (nth a (dL (kind d) (fst g)) []) = 3%nat) by (rewrite length_dL_row by exact Ha; exact canonical).
  assert (MI : matrix3 (inverse rest_J)) by (rewrite inverse_entries by apply rest_J_matrix; apply of_entries_matrix3).
  rewrite (vdot_sum _ _ 3) by (first [exact L | unfold column; rewrite map_length; exact (proj1 MI)]).
  cbn [seq map Rsum fold_right]. rewrite !nth_column. cbn [Nat.add]. unfold sum3, entries. ring.
Qed.

(** The gradient with respect to the rest coordinates is J_x J_0^-1. *)
Lemma grad_the_node X i k : (i < 3)%nat -> (k < 3)%nat ->
  grad n X (entries (dN_dx the_node)) i k =
  sum3 (fun l => grad n X (entries (dL (kind d) (fst g))) i l * entries (inverse rest_J) l k).
Proof.
  intros Hi Hk. unfold grad.
  rewrite (Rsum_ext _ _ (fun a => sum3 (fun l => X a i * entries (dL (kind d) (fst g)) a l * entries (inverse rest_J) l k)))
    by (intros a Ha; apply in_seq in Ha; rewrite the_node_entries by lia; unfold sum3; ring).
  unfold sum3. rewrite !Rsum_plus, !Rsum_scal_r. reflexivity.
Qed.

Hypothesis nonzero : det rest_J <> 0.

Lemma J_inverse i k : (i < 3)%nat -> (k < 3)%nat ->
  sum3 (fun l => entries rest_J i l * entries (inverse rest_J) l k) = delta i k.
Proof.
  intros Hi Hk. rewrite (inverse_entries _ rest_J_matrix).
  assert (N : det3 (entries rest_J) <> 0) by (rewrite <- det_entries by apply rest_J_matrix; exact nonzero).
  unfold sum3. rewrite !entries_of_entries by lia. revert N. generalize (entries rest_J). intros f N.
  unfold adj, delta. destruct i as [|[|[|]]], k as [|[|[|]]]; try lia; cbn [Nat.eqb]; unfold det3 in *; field; exact N.
Qed.

(** The deformation gradient is the identity at rest. *)
Lemma rest_gradient i k : (i < 3)%nat -> (k < 3)%nat ->
  grad n (entries (gather (positions d) row)) (entries (dN_dx the_node)) i k = delta i k.
Proof.
  intros Hi Hk. rewrite grad_the_node by assumption. rewrite <- J_inverse by assumption.
  apply sum3_ext. intros l Hl. f_equal. unfold rest_J. change (nodes_of_element d row) with (gather (positions d) row).
  rewrite jacobian_entries, entries_of_entries by assumption. reflexivity.
Qed.

(** Its determinant is the ratio of the local volumes. *)
Lemma gradient_det x :
  det (of_entries (grad n (entries (gather x row)) (entries (dN_dx the_node)))) * det rest_J =
  det (jacobian 3 (kind d) (gather x row) (fst g)).
Proof.
  rewrite jacobian_entries, !det_of_entries, (det_entries _ rest_J_matrix).
  set (A := grad n (entries (gather x row)) (entries (dL (kind d) (fst g)))).
  assert (E : det3 (grad n (entries (gather x row)) (entries (dN_dx the_node))) = det3 A * / det3 (entries rest_J)).
  { unfold det3 at 1. rewrite !grad_the_node by lia. fold A. rewrite (inverse_entries _ rest_J_matrix). unfold sum3. rewrite !entries_of_entries by lia.
    assert (N : det3 (entries rest_J) <> 0) by (rewrite <- det_entries by apply rest_J_matrix; exact nonzero).
    revert N. generalize (entries rest_J) A. intros f h N. unfold adj. unfold det3 in *. field. exact N. }
  rewrite E. field. rewrite <- det_entries by apply rest_J_matrix. exact nonzero.
Qed.

(** The derivatives of the shape functions sum to zero. *)
Lemma the_node_sum k : In g (gauss_nodes (kind d)) -> (k < 3)%nat -> Rsum (map (fun a => entries (dN_dx the_node) a k) (seq 0 n)) = 0.
Proof.
  intros Hg Hk.
  rewrite (Rsum_ext _ _ (fun a => sum3 (fun l => entries (dL (kind d) (fst g)) a l * entries (inverse rest_J) l k)))
    by (intros a Ha; apply in_seq in Ha; apply the_node_entries; [lia|exact Hk]).
  assert (Z : forall l, (l < 3)%nat -> Rsum (map (fun a => entries (dL (kind d) (fst g)) a l) (seq 0 n)) = 0).
  { intros l Hl. rewrite <- (derivatives_sum_to_zero (kind d) (fst g) l);
      [|rewrite canonical; apply (gauss_position_length3 (kind d)); assumption|lia].
    rewrite (Rsum_nth (map (fun row => nth l row 0) (dL (kind d) (fst g)))), map_length, length_dL. fold n.
    apply Rsum_ext. intros a _. symmetry. apply (nth_column (dL (kind d) (fst g)) l a). }
  unfold sum3. rewrite !Rsum_plus, !Rsum_scal_r, !Z by lia. ring.
Qed.
End Quadrature.

Lemma get_gauss_nodes_alt d row :
  get_gauss_nodes d (nodes_of_element d row) = map (the_node d row) (gauss_nodes (kind d)).
Proof. reflexivity. Qed.
