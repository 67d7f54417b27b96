(** Proofs for C103: hyperelastic forces, energy and stiffness of a relisted element. *)

From Coq Require Import ZArith Reals Lra Lia.
From Coquelicot Require Import Coquelicot.
From Coq Require Import List Arith Bool Permutation.
From Verif Require Import GridGeoModel ShapeModel ShapeSpec ShapeProofs ShapeFieldProofs ShapeGaussProofs LinAlg LinAlgProofs RectModel RectProofs BarycentricModel MappingSpec MappingProofs TensorModel TensorSpec
  MaterialModel MaterialSpec MaterialProofs MaterialProperties SparseModel SparseProofs Sums TractionModel TractionProofs HyperModel HyperSpec HyperProofs HyperProofs2 HyperProofs3 HyperProofs4 HyperProperties.
From Verif Require Import ObjectivityProofs ObjectivityProofs2 ObjectivityProofs3 NumberingSpec NumberingProofs.
From Verif Require ShapeFpSumProofs.
Import ListNotations.
Open Scope R_scope.

Lemma Rsum_order (h : nat -> R) n o : Permutation o (seq 0 n) -> Rsum (map (fun a => h (nth a o 0%nat)) (seq 0 n)) = Rsum (map h (seq 0 n)).
Proof.
  intros P. assert (L : length o = n) by (rewrite (Permutation_length P); apply seq_length).
  transitivity (Rsum (map h o)); [|apply ShapeFpSumProofs.Rsum_permutation, Permutation_map, P].
  f_equal. rewrite <- L. clear. induction o as [|a o IH]; [reflexivity|]. cbn [length seq map nth]. rewrite <- seq_shift, map_map. f_equal. exact IH.
Qed.

Lemma nth_map_rows (f : list R -> list R) l a : (a < length l)%nat -> nth a (map f l) [] = f (nth a l []).
Proof. intros Ha. rewrite (nth_indep _ [] (f [])) by (rewrite map_length; exact Ha). apply map_nth. Qed.

Section Relisted.
Context (m : material) (d : domain) (s : symmetry) (row : list nat).
Hypothesis Sd : CanonicalDimension (kind d) = 3%nat.
Hypothesis Hs : In s (symmetries (kind d)).
Hypothesis Hl : length row = NumberOfNodes (kind d).
Let n := NumberOfNodes (kind d).
Let o := order s.
Let row' := map (fun a => nth a row 0%nat) o.
Lemma order_perm : Permutation o (seq 0 n). Proof. apply symmetry_order. exact Hs. Qed.
Lemma order_length : length o = n. Proof. rewrite (Permutation_length order_perm). apply seq_length. Qed.
Lemma order_bound a : (a < n)%nat -> (nth a o 0 < n)%nat.
Proof. intros Ha. assert (I : In (nth a o 0%nat) (seq 0 n)) by (apply (Permutation_in _ order_perm), nth_In; rewrite order_length; exact Ha). apply in_seq in I. lia. Qed.
Lemma row'_length : length row' = n. Proof. unfold row'. rewrite map_length. apply order_length. Qed.
Lemma row'_nth a : (a < n)%nat -> nth a row' 0%nat = nth (nth a o 0%nat) row 0%nat.
Proof.
  intros Ha. unfold row'. rewrite (nth_indep _ 0%nat (nth 0 row 0%nat)) by (rewrite map_length, order_length; exact Ha). rewrite (map_nth (fun a => nth a row 0%nat)). reflexivity.
Qed.
Lemma gathered x a i : (a < n)%nat -> entries (gather x row') a i = entries (gather x row) (nth a o 0%nat) i.
Proof. intros Ha. rewrite !gather_entries by (first [rewrite row'_length; exact Ha | rewrite Hl; apply order_bound; exact Ha]). rewrite row'_nth by exact Ha. reflexivity. Qed.

Context (g : list R * R).
Hypothesis Hg : length (fst g) = 3%nat.
Let A := entries (turn s).
Let cg := carried_point s g.
Lemma derivatives a l : (a < n)%nat -> (l < 3)%nat -> entries (dL (kind d) (fst g)) a l = sum3 (fun k => entries (dL (kind d) (fst cg)) (nth a o 0%nat) k * A k l).
Proof.
  intros Ha Hl'. pose proof Hg as L. destruct (fst g) as [|u [|v [|w [|] ] ] ] eqn:E; try discriminate L.
  unfold cg, carried_point. cbn [fst]. rewrite E. rewrite (symmetry_derivatives (kind d) s u v w Hs) at 1. unfold entries at 1.
  set (h := fun a => map _ (seq 0 3)). rewrite (nth_indep _ [] (h 0%nat)) by (rewrite map_length; fold o; rewrite order_length; exact Ha). rewrite (map_nth h).
  unfold h. fold o. destruct l as [|[|[|] ] ]; try lia; reflexivity.
Qed.
Lemma grad_relisted x i l : (i < 3)%nat -> (l < 3)%nat ->
  grad n (entries (gather x row')) (entries (dL (kind d) (fst g))) i l = sum3 (fun k => grad n (entries (gather x row)) (entries (dL (kind d) (fst cg))) i k * A k l).
Proof.
  intros Hi Hl'. unfold grad.
  transitivity (Rsum (map (fun b => sum3 (fun k => entries (gather x row) b i * entries (dL (kind d) (fst cg)) b k * A k l)) (seq 0 n))).
  - etransitivity; [|apply (Rsum_order _ n o order_perm)]. apply Rsum_ext. intros a Ha. apply in_seq in Ha. assert (Ha2 : (a < n)%nat) by lia. rewrite (gathered x a i Ha2), (derivatives a l Ha2 Hl'). unfold sum3. ring.
  - unfold sum3. rewrite !Rsum_plus, !Rsum_scal_r. reflexivity.
Qed.
Lemma rest_relisted i l : (i < 3)%nat -> (l < 3)%nat -> entries (rest_J d row' g) i l = mul (entries (rest_J d row cg)) A i l.
Proof.
  intros Hi Hl'. unfold rest_J. change (nodes_of_element d row') with (gather (positions d) row'). change (nodes_of_element d row) with (gather (positions d) row).
  rewrite (jacobian_entries d row' g Sd row'_length), entries_of_entries by assumption. fold n. rewrite grad_relisted by assumption.
  unfold mul. apply sum3_ext. intros k Hk. rewrite (jacobian_entries d row cg Sd Hl), entries_of_entries by assumption. reflexivity.
Qed.
Lemma rest_det_relisted : det (rest_J d row' g) = det (rest_J d row cg) * det3 A.
Proof.
  rewrite !det_entries by (apply rest_J_matrix; first [exact Sd | exact Hl | exact row'_length]). rewrite (det3_ext _ (mul (entries (rest_J d row cg)) A)) by (intros; apply rest_relisted; assumption). apply det3_mul.
Qed.
Lemma volume_relisted : Rabs (det (rest_J d row' g)) = Rabs (det (rest_J d row cg)).
Proof. rewrite rest_det_relisted, Rabs_mult. destruct (proj2 (symmetry_turn (kind d) s Hs)) as [E|E]; fold A in E; rewrite E; [rewrite Rabs_R1|replace (Rabs (-1)) with 1 by (rewrite Rabs_left; lra)]; ring. Qed.
Lemma node_relisted a k : (a < n)%nat -> (k < 3)%nat -> entries (dN_dx (the_node d row' g)) a k = entries (dN_dx (the_node d row cg)) (nth a o 0%nat) k.
Proof.
  intros Ha Hk. rewrite (the_node_entries d row' g Sd row'_length) by assumption. rewrite (the_node_entries d row cg Sd Hl) by (first [apply order_bound; assumption | assumption]).
  assert (I : forall l, (l < 3)%nat -> entries (inverse (rest_J d row' g)) l k = mul (adj A) (entries (inverse (rest_J d row cg))) l k / det3 A).
  { intros l Hl'. rewrite (inverse_entries (rest_J d row' g)), entries_of_entries by (first [assumption | apply rest_J_matrix; first [exact Sd | exact row'_length]]).
    rewrite <- det_entries by (apply rest_J_matrix; first [exact Sd | exact row'_length]). rewrite rest_det_relisted.
    rewrite (adj_ext _ (mul (entries (rest_J d row cg)) A)) by (first [assumption | intros; apply rest_relisted; assumption]). rewrite adj_mul by assumption.
    rewrite (inverse_entries (rest_J d row cg)) by (apply rest_J_matrix; first [exact Sd | exact Hl]). unfold mul, sum3. rewrite !entries_of_entries by lia.
    rewrite <- det_entries by (apply rest_J_matrix; first [exact Sd | exact Hl]). unfold Rdiv. rewrite Rinv_mult. ring. }
  rewrite (sum3_ext _ (fun l => sum3 (fun k' => entries (dL (kind d) (fst cg)) (nth a o 0%nat) k' * A k' l) * (mul (adj A) (entries (inverse (rest_J d row cg))) l k / det3 A)))
    by (intros l Hl'; rewrite I, derivatives by assumption; reflexivity).
  assert (NZ : det3 A <> 0) by (destruct (proj2 (symmetry_turn (kind d) s Hs)) as [E|E]; fold A in E; rewrite E; lra).
  unfold mul, sum3. unfold det3, adj in *. field. exact NZ.
Qed.
Lemma node_row_relisted a : (a < n)%nat -> nth a (dN_dx (the_node d row' g)) [] = nth (nth a o 0%nat) (dN_dx (the_node d row cg)) [].
Proof.
  intros Ha. destruct (the_node_sound d row' g) as [L1 R1]. destruct (the_node_sound d row cg) as [L2 R2].
  pose proof (rows3_nth _ a R1 ltac:(rewrite L1; exact Ha)) as E1. pose proof (rows3_nth _ (nth a o 0%nat) R2 ltac:(rewrite L2; apply order_bound; exact Ha)) as E2.
  apply (nth_ext _ _ 0 0); [congruence|]. intros k Hk. rewrite E1 in Hk. apply node_relisted; assumption.
Qed.
Lemma gradient_relisted x : gradient x row' (the_node d row' g) = gradient x row (the_node d row cg).
Proof.
  unfold gradient. rewrite row'_length, Hl. fold n. unfold of_entries. apply map_ext_in. intros i Hi. apply map_ext_in. intros j Hj. apply in_seq in Hi, Hj. unfold grad.
  etransitivity; [|apply (Rsum_order (fun b => entries (gather x row) b i * entries (dN_dx (the_node d row cg)) b j) n o order_perm)].
  apply Rsum_ext. intros a Ha. apply in_seq in Ha. rewrite gathered, node_relisted by lia. reflexivity.
Qed.
Lemma deformation_relisted x : deformation (gather x row') (dN_dx (the_node d row' g)) = deformation (gather x row) (dN_dx (the_node d row cg)).
Proof.
  rewrite (deformation_entries _ _ n) by (first [unfold gather; rewrite map_length; apply row'_length | apply the_node_sound]).
  rewrite (deformation_entries _ _ n) by (first [unfold gather; rewrite map_length; exact Hl | apply the_node_sound]).
  pose proof (gradient_relisted x) as G. unfold gradient in G. rewrite row'_length, Hl in G. exact G.
Qed.
Lemma gauss_forces_relisted x a : (a < n)%nat -> nth a (gauss_forces m (gather x row') (the_node d row' g)) [] = nth (nth a o 0%nat) (gauss_forces m (gather x row) (the_node d row cg)) [].
Proof.
  intros Ha. unfold gauss_forces. rewrite deformation_relisted. cbn [jacobian_determinant weight the_node]. rewrite volume_relisted. change (snd cg) with (snd g).
  set (M := matmul 3 _ _). change (map (matvec (transpose 3 (inverse (rest_J d row' g)))) (dL (kind d) (fst g))) with (dN_dx (the_node d row' g)).
  change (map (matvec (transpose 3 (inverse (rest_J d row cg)))) (dL (kind d) (fst cg))) with (dN_dx (the_node d row cg)).
  rewrite (nth_map_rows (fun dx => matvec M dx) (dN_dx (the_node d row' g))) by (rewrite (proj1 (the_node_sound d row' g)); exact Ha).
  rewrite (nth_map_rows (fun dx => matvec M dx) (dN_dx (the_node d row cg))) by (rewrite (proj1 (the_node_sound d row cg)); apply order_bound; exact Ha).
  rewrite node_row_relisted by exact Ha. reflexivity.
Qed.
Lemma gauss_block_relisted x a b : (a < n)%nat -> (b < n)%nat ->
  gauss_block m (gather x row') a b (the_node d row' g) = gauss_block m (gather x row) (nth a o 0%nat) (nth b o 0%nat) (the_node d row cg).
Proof.
  intros Ha Hb. unfold gauss_block. rewrite deformation_relisted, !node_row_relisted by assumption. cbn [jacobian_determinant weight the_node]. rewrite volume_relisted. reflexivity.
Qed.
End Relisted.

(** What an element adds to the coordinate c of the force of the node p, and the row of the stiffness. *)
Definition node_force (m : material) (d : domain) (x : list (list R)) (p c : nat) (row : list nat) : R :=
  Rsum (map (fun a => if Nat.eqb (nth a row 0%nat) p then entries (element_forces m (gather x row) (quad d row)) a c else 0) (seq 0 (NumberOfNodes (kind d)))).
Definition node_stiffness (m : material) (d : domain) (x v : list (list R)) (p c : nat) (row : list nat) : R :=
  Rsum (map (fun a => if Nat.eqb (nth a row 0%nat) p then
     Rsum (map (fun b => sum3 (fun k => entries (block m d x row a b) c k * entries v (nth b row 0%nat) k)) (seq 0 (length row))) else 0) (seq 0 (length row))).
Definition usable (d : domain) (row : list nat) : Prop :=
  length row = NumberOfNodes (kind d) /\ Forall (fun i => (i < length (positions d))%nat) row.

Section One.
Context (m : material) (d : domain) (s : symmetry) (row : list nat).
Hypothesis Sd : CanonicalDimension (kind d) = 3%nat.
Hypothesis Hs : In s (symmetries (kind d)).
Hypothesis Hl : length row = NumberOfNodes (kind d).
Let n := NumberOfNodes (kind d).
Let o := order s.
Let row' := map (fun a => nth a row 0%nat) o.
Lemma over_points (f f' : gauss_node -> R) : (forall g, In g (gauss_nodes (kind d)) -> f' (the_node d row' g) = f (the_node d row (carried_point s g))) ->
  Rsum (map f' (quad d row')) = Rsum (map f (quad d row)).
Proof.
  intros H. unfold quad. rewrite !get_gauss_nodes_alt, !map_map. rewrite (Rsum_ext _ _ (fun g => (fun g => f (the_node d row g)) (carried_point s g))) by exact H.
  rewrite <- (map_map (carried_point s) (fun g => f (the_node d row g))). apply ShapeFpSumProofs.Rsum_permutation, Permutation_map, symmetry_points, Hs.
Qed.
Lemma element_forces_relisted x a c : (a < n)%nat -> entries (element_forces m (gather x row') (quad d row')) a c = entries (element_forces m (gather x row) (quad d row)) (nth a o 0%nat) c.
Proof.
  intros Ha. destruct (element_forces_spec m (gather x row') (quad d row') n) as (_ & _ & ->); [unfold gather; rewrite map_length; apply (row'_length d s row Hs)|apply quad_sound|].
  destruct (element_forces_spec m (gather x row) (quad d row) n) as (_ & _ & ->); [unfold gather; rewrite map_length; exact Hl|apply quad_sound|].
  apply (over_points (fun g => entries (gauss_forces m (gather x row) g) (nth a o 0%nat) c) (fun g => entries (gauss_forces m (gather x row') g) a c)). intros g Hg.
  unfold entries. unfold row', o. rewrite (gauss_forces_relisted m d s row Sd Hs Hl g (gauss_position_length3 (kind d) g Sd Hg) x a Ha). reflexivity.
Qed.
Lemma block_relisted x a b i j : (a < n)%nat -> (b < n)%nat -> entries (block m d x row' a b) i j = entries (block m d x row (nth a o 0%nat) (nth b o 0%nat)) i j.
Proof.
  intros Ha Hb. pose proof (row'_length d s row Hs) as L'. fold o row' in L'. pose proof (order_bound d s row Sd Hs Hl) as OB. fold o in OB.
  rewrite (block_spec m d x row') by (first [exact L' | rewrite L'; assumption]). rewrite (block_spec m d x row) by (first [exact Hl | rewrite Hl; apply OB; assumption]).
  apply (over_points (fun g => entries (gauss_block m (gather x row) (nth a o 0%nat) (nth b o 0%nat) g) i j) (fun g => entries (gauss_block m (gather x row') a b g) i j)). intros g Hg.
  unfold row', o. rewrite (gauss_block_relisted m d s row Sd Hs Hl g (gauss_position_length3 (kind d) g Sd Hg) x a b Ha Hb). reflexivity.
Qed.
Lemma node_force_relisted x p c : node_force m d x p c row' = node_force m d x p c row.
Proof.
  unfold node_force. fold n. etransitivity; [|apply (Rsum_order (fun b => if Nat.eqb (nth b row 0%nat) p then entries (element_forces m (gather x row) (quad d row)) b c else 0) n o (order_perm d s Hs))].
  apply Rsum_ext. intros a Ha. apply in_seq in Ha. unfold row' at 1, o at 1. rewrite (row'_nth d s row Hs) by (fold n; lia). fold o. rewrite element_forces_relisted by lia. reflexivity.
Qed.
Lemma node_stiffness_relisted x v p c : node_stiffness m d x v p c row' = node_stiffness m d x v p c row.
Proof.
  unfold node_stiffness. pose proof (row'_length d s row Hs) as L'. fold o row' in L'. rewrite L', Hl. fold n.
  etransitivity; [|apply (Rsum_order (fun a => if Nat.eqb (nth a row 0%nat) p then Rsum (map (fun b => sum3 (fun k => entries (block m d x row a b) c k * entries v (nth b row 0%nat) k)) (seq 0 n)) else 0) n o (order_perm d s Hs))].
  apply Rsum_ext. intros a Ha. apply in_seq in Ha. unfold row' at 1, o at 1. rewrite (row'_nth d s row Hs) by (fold n; lia). fold o. destruct (Nat.eqb _ p); [|reflexivity].
  etransitivity; [|apply (Rsum_order (fun b => sum3 (fun k => entries (block m d x row (nth a o 0%nat) b) c k * entries v (nth b row 0%nat) k)) n o (order_perm d s Hs))].
  apply Rsum_ext. intros b Hb. apply in_seq in Hb. apply sum3_ext. intros k Hk. unfold row' at 2, o at 3. rewrite (row'_nth d s row Hs) by (fold n; lia). fold o. rewrite block_relisted by lia. reflexivity.
Qed.
Lemma energy_relisted x : Rsum (map (fun g => jacobian_determinant g * weight g * strain_energy_density m (det (gradient x row' g)) (cauchy_green (gradient x row' g))) (quad d row')) =
  Rsum (map (fun g => jacobian_determinant g * weight g * strain_energy_density m (det (gradient x row g)) (cauchy_green (gradient x row g))) (quad d row)).
Proof.
  apply (over_points (fun g => jacobian_determinant g * weight g * strain_energy_density m (det (gradient x row g)) (cauchy_green (gradient x row g)))
                     (fun g => jacobian_determinant g * weight g * strain_energy_density m (det (gradient x row' g)) (cauchy_green (gradient x row' g)))). intros g Hg.
  unfold row', o. rewrite (gradient_relisted d s row Sd Hs Hl g (gauss_position_length3 (kind d) g Sd Hg) x). cbn [jacobian_determinant weight the_node]. rewrite (volume_relisted d s row Sd Hs Hl g (gauss_position_length3 (kind d) g Sd Hg)). reflexivity.
Qed.
Lemma regular_relisted : Forall (fun g => local_volume d row (fst g) <> 0) (gauss_nodes (kind d)) -> Forall (fun g => local_volume d row' (fst g) <> 0) (gauss_nodes (kind d)).
Proof.
  intros F. apply Forall_forall. intros g Hg. assert (I : In (carried_point s g) (gauss_nodes (kind d))) by (apply (Permutation_in _ (symmetry_points (kind d) s Hs)), in_map, Hg).
  pose proof (proj1 (Forall_forall _ _) F _ I) as NZ. change (local_volume d row (fst (carried_point s g))) with (det (rest_J d row (carried_point s g))) in NZ.
  change (local_volume d row' (fst g)) with (det (rest_J d row' g)). intros Z. apply NZ. pose proof (volume_relisted d s row Sd Hs Hl g (gauss_position_length3 (kind d) g Sd Hg)) as V. fold o row' in V. rewrite Z, Rabs_R0 in V.
  destruct (Req_dec (det (rest_J d row (carried_point s g))) 0) as [E|E]; [exact E|]. apply Rabs_pos_lt in E. lra.
Qed.
End One.

Section Closure.
Context (m : material) (d : domain).
Hypothesis Sd : CanonicalDimension (kind d) = 3%nat.
Lemma relisted_usable row row' : usable d row -> relisted (kind d) row row' -> usable d row'.
Proof.
  intros U R. induction R as [|row' s Hs R [IL IF] ]; [exact U|]. split; [apply (row'_length d s row' Hs)|].
  apply Forall_forall. intros i Hi. apply in_map_iff in Hi. destruct Hi as (a & <- & Ha). apply (Permutation_in _ (order_perm d s Hs)) in Ha. apply in_seq in Ha.
  apply (proj1 (Forall_forall _ _) IF), nth_In. rewrite IL. lia.
Qed.
Lemma relisted_force x p c row row' : usable d row -> relisted (kind d) row row' -> node_force m d x p c row' = node_force m d x p c row.
Proof.
  intros U R. induction R as [|row' s Hs R IH]; [reflexivity|]. rewrite <- IH. apply node_force_relisted; first [assumption | apply (relisted_usable row); assumption].
Qed.
Lemma relisted_stiffness x v p c row row' : usable d row -> relisted (kind d) row row' -> node_stiffness m d x v p c row' = node_stiffness m d x v p c row.
Proof.
  intros U R. induction R as [|row' s Hs R IH]; [reflexivity|]. rewrite <- IH. apply node_stiffness_relisted; first [assumption | apply (relisted_usable row); assumption].
Qed.
Lemma relisted_regular row row' : usable d row -> relisted (kind d) row row' ->
  Forall (fun g => local_volume d row (fst g) <> 0) (gauss_nodes (kind d)) -> Forall (fun g => local_volume d row' (fst g) <> 0) (gauss_nodes (kind d)).
Proof.
  intros U R F. induction R as [|row' s Hs R IH]; [exact F|]. apply regular_relisted; first [assumption | apply (relisted_usable row); assumption].
Qed.
Lemma relisted_energy x row row' : usable d row -> relisted (kind d) row row' ->
  field (length (positions d)) 3 (positions d) -> field (length (positions d)) 3 x -> Forall (fun g => local_volume d row (fst g) <> 0) (gauss_nodes (kind d)) ->
  element_energy m d x row' = element_energy m d x row.
Proof.
  intros U R F0 Fx NZ. induction R as [|row' s Hs R IH]; [reflexivity|]. rewrite <- IH. pose proof (relisted_usable row row' U R) as U'.
  pose proof (relisted_regular row row' U R NZ) as NZ'. assert (U2 : usable d (map (fun a => nth a row' 0%nat) (order s))) by (apply (relisted_usable row); [exact U|constructor; assumption]).
  rewrite !(element_energy_spec m d x _ (length (positions d))) by (first [assumption | apply U' | apply U2 | apply regular_relisted; first [assumption | apply U']]).
  apply energy_relisted; first [assumption | apply U'].
Qed.
Lemma relisted_distinct row row' : usable d row -> relisted (kind d) row row' -> NoDup row -> NoDup row'.
Proof.
  intros U R ND. induction R as [|row' s Hs R IH]; [exact ND|]. destruct (relisted_usable row row' U R) as [L' _].
  apply (Permutation_NoDup (l := map (fun a => nth a row' 0%nat) (seq 0 (length row')))).
  - apply Permutation_map. rewrite L'. symmetry. apply (order_perm d s Hs).
  - assert (E : map (fun a => nth a row' 0%nat) (seq 0 (length row')) = row'); [|rewrite E; exact IH].
    clear. induction row' as [|i row' IH]; [reflexivity|]. cbn [length seq map nth]. rewrite <- seq_shift, map_map. f_equal. exact IH.
Qed.
End Closure.
