(** C83: the shape functions and the interpolation with IEEE doubles (Element.h, Segment.h, Triangle.h, Quad.h, Tetrahedron.h, Hexahedron.h).
    [val x] is the real number a finite double [x] stands for; [L], [dL], [interpolate], [jacobian] and [canonical_nodes] are the exact
    functions of ShapeModel.v, about which C11 to C16 speak. *)

From Coq Require Import ZArith Reals Lra Lia Psatz List Bool Permutation.
From Coq Require Import SpecFloat.
From Flocq Require Import Core.Core IEEE754.BinarySingleNaN.
From Verif Require Import GridGeoModel ShapeModel ShapeSpec FpModel FpProofs GridFpProofs GridFpAroundProofs ShapeFpModel ShapeFpProofs ShapeFpSumProofs.
From Verif Require ShapeProofs.
Import ListNotations.
Open Scope R_scope.

(** Local coordinates: finite doubles between -1 and 1 (the reference elements are within these bounds). *)
Definition local_point (e : element) (xi : list double) : Prop :=
  length xi = CanonicalDimension e /\ Forall (fun x => fin x /\ Rabs (val x) <= 1) xi.
(** Values at the nodes, of magnitude at most [M]. *)
Definition node_values (e : element) (M : R) (values : list double) : Prop :=
  length values = NumberOfNodes e /\ Forall (fun y => fin y /\ Rabs (val y) <= M) values.
(** An order in which the terms 0, ..., n-1 are summed, with at most 32 leaves (the elements have at most 20 nodes). *)
Definition order (n : nat) (t : tree) : Prop := Permutation (terms t) (seq 0 n) /\ (size t <= 32)%nat.

(** The computed shape functions and their derivatives are finite and within 2^-44 of the exact ones. *)
Theorem C83_shape : forall e xi i, local_point e xi -> (i < NumberOfNodes e)%nat ->
  fin (nth i (fL e xi) (of_int 0)) /\ Rabs (val (nth i (fL e xi) (of_int 0)) - nth i (L e (map val xi)) 0) <= / IZR (2 ^ 44).
Proof. intros e xi i [_ S] H. destruct (L_sound e xi i S H) as (A & _ & B). split; assumption. Qed.
Print Assumptions C83_shape.

Theorem C83_derivatives : forall e xi i k, local_point e xi -> (i < NumberOfNodes e)%nat -> (k < CanonicalDimension e)%nat ->
  fin (nth k (nth i (fdL e xi) []) (of_int 0)) /\
  Rabs (val (nth k (nth i (fdL e xi) []) (of_int 0)) - nth k (nth i (dL e (map val xi)) []) 0) <= / IZR (2 ^ 44).
Proof. intros e xi i k [_ S] H K. destruct (dL_sound e xi i k S H K) as (A & _ & B). split; assumption. Qed.
Print Assumptions C83_derivatives.

(** Their sum, made exactly, is 1 up to 20 times that. *)
Theorem C83_partition : forall e xi, local_point e xi -> Rabs (Rsum (map val (fL e xi)) - 1) <= 20 * / IZR (2 ^ 44).
Proof.
  intros e xi [Lx S]. rewrite <- (ShapeProofs.partition_of_unity e (map val xi)) by (rewrite map_length; exact Lx).
  assert (N : length (map val (fL e xi)) = NumberOfNodes e) by (rewrite map_length; apply length_fL).
  rewrite <- (map_nth_all (map val (fL e xi))), <- (map_nth_all (L e (map val xi))), N, ShapeProofs.length_L.
  eapply Rle_trans; [apply (Rsum_close _ _ _ (/ IZR (2 ^ 44)))|].
  - apply Rlt_le, Rinv_0_lt_compat, IZR_lt. reflexivity.
  - intros i Hi. apply in_seq in Hi. rewrite (nth_indep _ 0 (val (of_int 0))) by (rewrite N; lia). rewrite map_nth. apply L_sound; [exact S|lia].
  - rewrite seq_length. apply Rmult_le_compat_r; [apply Rlt_le, Rinv_0_lt_compat, IZR_lt; reflexivity|]. rewrite INR_IZR_INZ. apply IZR_le. destruct e; cbn; lia.
Qed.
Print Assumptions C83_partition.

(** At a node of the element the computed shape functions are exactly 1 and 0. *)
Theorem C83_node_exact : forall e i j, (i < NumberOfNodes e)%nat -> (j < NumberOfNodes e)%nat ->
  map (map val) (fcanonical_nodes e) = canonical_nodes e /\
  fin (nth i (fL e (nth j (fcanonical_nodes e) [])) (of_int 0)) /\
  val (nth i (fL e (nth j (fcanonical_nodes e) [])) (of_int 0)) = if (i =? j)%nat then 1 else 0.
Proof.
  intros e i j Hi Hj. split; [|apply node_sound; assumption]. rewrite <- real_nodes. unfold fcanonical_nodes. rewrite map_map. apply map_ext_in. intros row Hr. rewrite map_map. apply map_ext_in. intros mk Hm.
  assert (R : forallb (forallb (fun mk => (Z.abs (fst mk) <? 2 ^ 53)%Z && (0 <=? snd mk)%Z && (snd mk <=? 100)%Z)) (dyadic_nodes e) = true) by (destruct e; reflexivity).
  rewrite forallb_forall in R. specialize (R row Hr). rewrite forallb_forall in R. specialize (R mk Hm). apply andb_prop in R. destruct R as [R R3]. apply andb_prop in R. destruct R as [R1 R2].
  apply Z.ltb_lt in R1. apply Z.leb_le in R2, R3. apply dbl_val; [exact R1|split; assumption].
Qed.
Print Assumptions C83_node_exact.

Definition column (c : nat) (rows : list (list double)) : list double := map (fun row => nth c row (of_int 0)) rows.
Lemma column_products : forall c values l, map2 (fun row x => nth c row 0 * x) (map (map val) values) l = map2 Rmult (map val (column c values)) l.
Proof.
  intros c. destruct (of_int_exact 0) as [_ E0]; [lia|]. unfold column. induction values as [|row values IH]; intros [|x l]; try reflexivity. cbn [map map2]. f_equal; [|apply IH].
  f_equal. rewrite <- E0. rewrite map_nth. reflexivity.
Qed.
Lemma map2_map_r : forall (A B C D : Type) (f : A -> C -> D) (g : B -> C) a b, map2 (fun x y => f x (g y)) a b = map2 f a (map g b).
Proof. intros A B C D f g. induction a as [|x a IH]; intros [|y b]; try reflexivity. cbn [map map2]. f_equal. apply IH. Qed.
Lemma nth_map_seq : forall (f : nat -> R) n c, (c < n)%nat -> nth c (map f (seq 0 n)) 0 = f c.
Proof. intros f n c H. rewrite (nth_indep _ 0 (f 0%nat)) by (rewrite map_length, seq_length; exact H). rewrite (map_nth f), seq_nth by exact H. reflexivity. Qed.

(** Interpolation, the terms being summed in any order: within 2^-35 M of the exact value, for values of magnitude at most M. *)
Theorem C83_interpolate : forall t e xi values c NbCols M, order (NumberOfNodes e) t -> local_point e xi -> (c < NbCols)%nat ->
  bpow radix2 (-900) <= M <= bpow radix2 900 -> node_values e M (column c values) ->
  fin (finterpolate t e xi (column c values)) /\
  Rabs (val (finterpolate t e xi (column c values)) - nth c (interpolate NbCols e (map val xi) (map (map val) values)) 0) <= / IZR (2 ^ 35) * M.
Proof.
  intros t e xi values c NbCols M [P Sz] [_ S] Hc HM [Lv Hv]. unfold interpolate. rewrite nth_map_seq by exact Hc. rewrite column_products.
  apply weighted_sound with (n := NumberOfNodes e); try assumption; [apply length_fL|apply ShapeProofs.length_L|]. intros i Hi. apply L_sound; assumption.
Qed.
Print Assumptions C83_interpolate.

(** At a node, interpolation returns exactly the value given there, in whatever order the terms are summed. *)
Theorem C83_interpolate_node : forall t e values j M, order (NumberOfNodes e) t -> (j < NumberOfNodes e)%nat -> M <= bpow radix2 900 -> node_values e M values ->
  fin (finterpolate t e (nth j (fcanonical_nodes e) []) values) /\
  val (finterpolate t e (nth j (fcanonical_nodes e) []) values) = val (nth j values (of_int 0)).
Proof.
  intros t e values j M [P _] Hj HM [Lv Hv]. unfold finterpolate. set (s := fL e (nth j (fcanonical_nodes e) [])).
  assert (MB : M <= big) by (apply Rle_trans with (1 := HM); apply bpow_le; lia).
  assert (Q : forall i, (i < NumberOfNodes e)%nat -> fin (nth i (map2 fmul values s) (of_int 0)) /\ val (nth i (map2 fmul values s) (of_int 0)) = if (i =? j)%nat then val (nth i values (of_int 0)) else 0).
  { intros i Hi. rewrite (map2_nth _ _ _ fmul values s i (of_int 0) (of_int 0)) by (unfold s; rewrite ?length_fL; lia). destruct (node_sound e i j Hi Hj) as [A B]. fold s in A, B.
    rewrite Forall_forall in Hv. destruct (Hv (nth i values (of_int 0))) as [V1 V2]; [apply nth_In; lia|].
    assert (X : val (nth i values (of_int 0)) * val (nth i s (of_int 0)) = if (i =? j)%nat then val (nth i values (of_int 0)) else 0) by (rewrite B; destruct (i =? j)%nat; ring).
    destruct (mul_rnd _ _ V1 A) as [F E].
    - rewrite X. destruct (i =? j)%nat; [lra|rewrite Rabs_R0; apply bpow_ge_0].
    - split; [exact F|]. rewrite E, X. apply rnd_format. destruct (i =? j)%nat; [apply format_val|apply generic_format_0]. }
  assert (Ej : val (nth j (map2 fmul values s) (of_int 0)) = val (nth j values (of_int 0))) by (destruct (Q j Hj) as [_ E]; rewrite Nat.eqb_refl in E; exact E).
  destruct (fsum_single (map2 fmul values s) t j) as [F E].
  - apply (Permutation_NoDup (Permutation_sym P)), seq_NoDup.
  - intros i Hi. apply (Permutation_in _ P), in_seq in Hi. destruct (Q i ltac:(lia)) as [A B]. split; [exact A|]. intros Ne. apply Nat.eqb_neq in Ne. rewrite Ne in B. exact B.
  - rewrite Ej. rewrite Forall_forall in Hv. destruct (Hv (nth j values (of_int 0))) as [_ V2]; [apply nth_In; lia|]. lra.
  - split; [exact F|]. rewrite E. destruct (in_dec Nat.eq_dec j (terms t)) as [_|No]; [exact Ej|]. exfalso. apply No, (Permutation_in _ (Permutation_sym P)), in_seq. lia.
Qed.
Print Assumptions C83_interpolate_node.

(** The Jacobian matrix, same bound. *)
Theorem C83_jacobian : forall t e xi nodes c k Dimension M, order (NumberOfNodes e) t -> local_point e xi -> (c < Dimension)%nat -> (k < CanonicalDimension e)%nat ->
  bpow radix2 (-900) <= M <= bpow radix2 900 -> node_values e M (column c nodes) ->
  fin (fjacobian t e xi (column c nodes) k) /\
  Rabs (val (fjacobian t e xi (column c nodes) k) - nth k (nth c (jacobian Dimension e (map (map val) nodes) (map val xi)) []) 0) <= / IZR (2 ^ 35) * M.
Proof.
  intros t e xi nodes c k Dimension M [P Sz] [_ S] Hc Hk HM [Lv Hv].
  assert (E : nth k (nth c (jacobian Dimension e (map (map val) nodes) (map val xi)) []) 0 = Rsum (map2 Rmult (map val (column c nodes)) (map (fun d => nth k d 0) (dL e (map val xi))))).
  { unfold jacobian. set (f := fun c => map _ _). rewrite (nth_indep _ [] (f 0%nat)) by (rewrite map_length, seq_length; exact Hc). rewrite (map_nth f), seq_nth by exact Hc. unfold f. rewrite nth_map_seq by exact Hk.
    cbn [Nat.add]. rewrite (map2_map_r _ _ _ _ (fun row x => nth c row 0 * x) (fun d => nth k d 0)), column_products. reflexivity. }
  rewrite E. assert (Lf : length (fdL e xi) = NumberOfNodes e) by (unfold fdL; rewrite map_length; apply length_exdL).
  apply weighted_sound with (n := NumberOfNodes e); try assumption; [rewrite map_length; exact Lf|rewrite map_length; apply ShapeProofs.length_dL|]. intros i Hi.
  assert (E1 : nth i (map (fun row => nth k row (of_int 0)) (fdL e xi)) (of_int 0) = nth k (nth i (fdL e xi) []) (of_int 0)).
  { rewrite (nth_indep _ _ ((fun row => nth k row (of_int 0)) [])) by (rewrite map_length, Lf; exact Hi). apply (map_nth (fun row => nth k row (of_int 0))). }
  assert (E2 : nth i (map (fun d => nth k d 0) (dL e (map val xi))) 0 = nth k (nth i (dL e (map val xi)) []) 0).
  { rewrite (nth_indep _ _ ((fun d => nth k d 0) [])) by (rewrite map_length, ShapeProofs.length_dL; exact Hi). apply (map_nth (fun d => nth k d 0)). }
  rewrite E1, E2. apply dL_sound; assumption.
Qed.
Print Assumptions C83_jacobian.

(** The linear elements whose computed shape functions are never negative inside the reference element. *)
Theorem C83_nonneg : forall e xi i, local_point e xi -> (i < NumberOfNodes e)%nat ->
  match e with
  | Segment_Linear | Quad_Linear | RectangularQuad_Linear | Hexahedron_Linear | RectangularHexahedron_Linear => True
  | Triangle_Linear => in_reference e 0 (map val xi)
  | _ => False
  end -> 0 <= val (nth i (fL e xi) (of_int 0)).
Proof.
  intros e xi i [Lx S] Hi He. rewrite nth_fL by exact Hi.
  assert (T : forall e', forallb (fun a => tensor a && in_range a) (ex_L e') = true -> (i < NumberOfNodes e')%nat -> 0 <= val (double_value xi (nth i (ex_L e') zero_ex))).
  { intros e' C H. rewrite forallb_forall in C. assert (I : In (nth i (ex_L e') zero_ex) (ex_L e')). { apply nth_In. rewrite <- (length_fL e' xi) in H. unfold fL in H. rewrite map_length in H. exact H. }
    specialize (C _ I). apply andb_prop in C. destruct C. apply tensor_sound; assumption. }
  destruct e; try contradiction; try (apply T; [vm_compute; reflexivity|exact Hi]).
  destruct xi as [|x [|y [|]]]; try discriminate Lx. destruct He as (_ & He & Hs). cbn [simplex map] in He, Hs. change (Rsum [val x; val y]) with (val x + (val y + 0)) in Hs.
  apply Forall_cons_iff in He. destruct He as [X0 He]. apply Forall_cons_iff in He. destruct He as [Y0 _].
  apply Forall_cons_iff in S. destruct S as [[Fx Bx] S]. apply Forall_cons_iff in S. destruct S as [[Fy By] _].
  cbn [NumberOfNodes] in Hi. destruct i as [|[|[|i]]]; [| | |cbn in Hi; lia].
  - change (double_value [x; y] (nth 0 (ex_L Triangle_Linear) zero_ex)) with (fsub (fsub (dbl 1 (- 0)) x) y).
    destruct one_dbl as [F1 E1]. destruct (sub_rnd _ _ F1 Fx) as [F2 E2]; [apply small_big; rewrite E1; apply abs_le in Bx; apply Rabs_le; lra|]. rewrite E1 in E2.
    assert (G1 : val y <= val (fsub (dbl 1 (- 0)) x)) by (rewrite E2, <- (rnd_format (val y)) by apply format_val; apply rnd_le; lra).
    assert (R1 : rnd 1 = 1) by (apply rnd_format; rewrite <- E1; apply format_val). assert (G2 : val (fsub (dbl 1 (- 0)) x) <= 1) by (rewrite E2; apply Rle_trans with (rnd 1); [apply rnd_le; lra|lra]).
    destruct (sub_rnd _ _ F2 Fy) as [_ E3]; [apply small_big; apply Rabs_le; lra|]. rewrite E3. apply rnd_ge_0. lra.
  - change (0 <= val x). lra.
  - change (0 <= val y). lra.
Qed.
Print Assumptions C83_nonneg.

(** In a linear tetrahedron they can be: a point of the reference tetrahedron whose first shape function is computed negative. *)
Definition tetrahedron_point : list double := [dbl 3 (-55); dbl 3 (-2); dbl 9007199254740989 (-55)].
Lemma tetrahedron_point_val : Forall (fun x => fin x) tetrahedron_point /\ map val tetrahedron_point = [3 / IZR (2 ^ 55); 3 / 4; 9007199254740989 / IZR (2 ^ 55)].
Proof.
  destruct (dbl_val 3 55) as [A1 B1]; [lia|lia|]. destruct (dbl_val 3 2) as [A2 B2]; [lia|lia|]. destruct (dbl_val 9007199254740989 55) as [A3 B3]; [lia|lia|].
  split; [repeat (apply Forall_cons; [assumption|]); apply Forall_nil|]. change (map val tetrahedron_point) with [val (dbl 3 (- (55))); val (dbl 3 (- (2))); val (dbl 9007199254740989 (- (55)))]. rewrite B1, B2, B3. reflexivity.
Qed.
Theorem C83_tetrahedron_nonneg_refuted : exists xi, local_point Tetrahedron_Linear xi /\ in_reference Tetrahedron_Linear 0 (map val xi) /\
  nth 0 (L Tetrahedron_Linear (map val xi)) 0 = 0 /\ val (nth 0 (fL Tetrahedron_Linear xi) (of_int 0)) < 0.
Proof.
  exists tetrahedron_point. destruct tetrahedron_point_val as [F E]. change (2 ^ 55)%Z with 36028797018963968%Z in E.
  split; [|split; [|split]].
  - split; [reflexivity|]. assert (G : Forall (fun x => Rabs x <= 1) (map val tetrahedron_point)). { rewrite E. repeat (apply Forall_cons; [apply Rabs_le; lra|]). apply Forall_nil. }
    rewrite Forall_map in G. apply Forall_and; assumption.
  - rewrite E. split; [reflexivity|]. split; [repeat (apply Forall_cons; [lra|]); apply Forall_nil|]. unfold Rsum. cbn [fold_right]. lra.
  - rewrite E. change (1 - 3 / 36028797018963968 - 3 / 4 - 9007199254740989 / 36028797018963968 = 0). lra.
  - rewrite val_SF. assert (C : B2SF (nth 0 (fL Tetrahedron_Linear tetrahedron_point) (of_int 0)) = S754_finite true (2 ^ 52) (-107)) by (vm_compute; reflexivity).
    rewrite C. cbn [SF2R cond_Zopp]. apply F2R_lt_0. reflexivity.
Qed.
Print Assumptions C83_tetrahedron_nonneg_refuted.

(** The hypotheses are met: a quadratic hexahedron, its terms added from left to right, at a point that is not a node. *)
Example C83_witness : order 20 (fold_left Plus (map Term (seq 1 19)) (Term 0)) /\
  local_point Hexahedron_Quadratic [dbl 1 (-2); dbl (-1) (-1); dbl 3 (-3)] /\
  node_values Hexahedron_Quadratic 100 (map of_int (map Z.of_nat (seq 0 20))) /\ bpow radix2 (-900) <= 100 <= bpow radix2 900.
Proof.
  split; [|split; [|split]].
  - split; [vm_compute; apply Permutation_refl|vm_compute; lia].
  - destruct (dbl_val 1 2) as [A1 B1]; [lia|lia|]. destruct (dbl_val (-1) 1) as [A2 B2]; [lia|lia|]. destruct (dbl_val 3 3) as [A3 B3]; [lia|lia|].
    split; [reflexivity|]. change (-2)%Z with (- (2))%Z. change (-1)%Z with (- (1))%Z at 2. change (-3)%Z with (- (3))%Z.
    repeat (apply Forall_cons; [split; [assumption|]|]); [rewrite B1|rewrite B2|rewrite B3|apply Forall_nil]; change (2 ^ 2)%Z with 4%Z; change (2 ^ 1)%Z with 2%Z; change (2 ^ 3)%Z with 8%Z; apply Rabs_le; lra.
  - split; [reflexivity|]. rewrite map_map, Forall_map, Forall_forall. intros i Hi. apply in_seq in Hi. destruct (of_int_exact (Z.of_nat i)) as [A B]; [lia|]. split; [exact A|].
    rewrite B, <- abs_IZR. apply IZR_le. lia.
  - split; [apply Rle_trans with (bpow radix2 0); [apply bpow_le; lia|cbn; lra]|apply Rle_trans with (bpow radix2 7); [cbn; lra|apply bpow_le; lia]].
Qed.
