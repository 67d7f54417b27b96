(** Proofs about the barycentric mapping. *)

From Coq Require Import ZArith Reals Lra Lia.
From Coquelicot Require Import Coquelicot.
From Coq Require Import List Arith Bool.
From Flocq Require Import Core.Raux.
From Verif Require Import GridGeoModel HashGridModel HashGridProofs ShapeModel ShapeSpec ShapeProofs ShapeFieldProofs LinAlg RectModel RectProofs
  LinAlgProofs NewtonLocalProofs BarycentricModel BarycentricSpec BarycentricProofs Sums SparseModel SparseProofs MappingModel MappingSpec.
Import ListNotations.
Open Scope R_scope.

(** * Ids returned by the hash grid *)

Lemma emplace_ids : forall t key id k ids x, In (k, ids) (emplace t key id) -> In x ids ->
  x = id \/ exists k' ids', In (k', ids') t /\ In x ids'.
Proof.
  induction t as [|[k0 ids0] t IH]; intros key id k ids x H Hx; simpl in H.
  - destruct H as [[= <- <-]|[]]. destruct Hx as [->|[]]. left. reflexivity.
  - destruct (hash_equal k0 key).
    + destruct H as [[= <- <-]|H].
      * apply in_app_or in Hx. destruct Hx as [Hx|[->|[]]]; [|left; reflexivity]. right. exists k0, ids0. split; [left; reflexivity|exact Hx].
      * right. exists k, ids. split; [right; exact H|exact Hx].
    + destruct H as [[= <- <-]|H].
      * right. exists k0, ids0. split; [left; reflexivity|exact Hx].
      * destruct (IH _ _ _ _ _ H Hx) as [->|(k' & ids' & A & B)]; [left; reflexivity|]. right. exists k', ids'. split; [right; exact A|exact B].
Qed.
Lemma fold_emplace_ids : forall keys t id k ids x, In (k, ids) (fold_left (fun t key => emplace t key id) keys t) -> In x ids ->
  x = id \/ exists k' ids', In (k', ids') t /\ In x ids'.
Proof.
  induction keys as [|key keys IH]; intros t id k ids x H Hx; simpl in H.
  - right. exists k, ids. split; assumption.
  - destruct (IH _ _ _ _ _ H Hx) as [->|(k' & ids' & A & B)]; [left; reflexivity|]. exact (emplace_ids _ _ _ _ _ _ A B).
Qed.
Lemma run_ids_aux : forall h history t k ids x,
  In (k, ids) (fold_left (fun t op => add h t (fst op) (snd op)) history t) -> In x ids ->
  In x (map snd history) \/ exists k' ids', In (k', ids') t /\ In x ids'.
Proof.
  induction history as [|op history IH]; intros t k ids x H Hx; simpl in H.
  - right. exists k, ids. split; assumption.
  - destruct (IH _ _ _ _ H Hx) as [A|(k' & ids' & A & B)]; [left; right; exact A|].
    unfold add in A. destruct (fold_emplace_ids _ _ _ _ _ _ A B) as [->|C]; [left; left; reflexivity|right; exact C].
Qed.
Lemma find_in : forall t key ids, find t key = Some ids -> exists k, In (k, ids) t.
Proof.
  induction t as [|[k i] t IH]; intros key ids H; [discriminate|]. simpl in H. destruct (hash_equal k key).
  - injection H as <-. exists k. left. reflexivity.
  - destruct (IH _ _ H) as [k' Hk]. exists k'. right. exact Hk.
Qed.
Lemma get_ids : forall h history p x, In x (get h (run h history) p) -> In x (map snd history).
Proof.
  intros h history p x H. unfold get in H. apply nodup_In, in_flat_map in H. destruct H as (key & _ & H).
  destruct (find (run h history) key) as [ids|] eqn:E; [|destruct H]. destruct (find_in _ _ _ E) as [k Hk].
  destruct (run_ids_aux _ _ _ _ _ _ Hk H) as [A|(k' & ids' & [] & _)]. exact A.
Qed.

Lemma first_containing_spec : forall d p l, fst (first_containing d p l) = (-1)%Z \/
  In (fst (first_containing d p l)) l.
Proof.
  induction l as [|id l IH]; [left; reflexivity|]. simpl.
  destruct (contains_local _ _ _) as [[|]|]; [right; left; reflexivity| |]; (destruct IH as [IH|IH]; [left; exact IH|right; right; exact IH]).
Qed.

Lemma barycentric_point_id : forall d grid p, build d = Some grid ->
  fst (barycentric_point d grid p) = (-1)%Z \/
  exists k, (k < length (connectivity d))%nat /\ fst (barycentric_point d grid p) = Z.of_nat k.
Proof.
  intros d grid p H. unfold build in H. destruct (connectivity d) as [|r rs] eqn:E; [discriminate|]. rewrite <- E in *. clear E r rs.
  injection H as <-. unfold barycentric_point. cbn [fst snd].
  destruct (first_containing_spec d p (get (maxCoeff (H_mean d)) (run (maxCoeff (H_mean d)) (combine (elements d) (map Z.of_nat (seq 0 (length (connectivity d)))))) p)) as [A|A];
    [left; exact A|right].
  apply get_ids in A. apply in_map_iff in A. destruct A as ([n z] & <- & A). apply in_combine_r in A.
  apply in_map_iff in A. destruct A as (k & <- & Hk). apply in_seq in Hk. exists k. split; [lia|reflexivity].
Qed.

(** * Length of the local coordinates *)

Lemma inverse_length : forall k M, (1 <= k <= 3)%nat -> length M = k -> Forall (fun r => length r = k) M -> length (inverse M) = k.
Proof.
  intros k M Hk HM HF.
  assert (C : k = 1%nat \/ k = 2%nat \/ k = 3%nat) by lia. destruct C as [->|[->| ->]].
  - destruct M as [|r [|]]; try discriminate. inversion HF as [|? ? A _]; subst. destruct r as [|a [|]]; try discriminate. reflexivity.
  - destruct M as [|r [|r' [|]]]; try discriminate. inversion HF as [|? ? A B]; subst. inversion B as [|? ? A' _]; subst.
    destruct r as [|a [|b [|]]]; try discriminate. destruct r' as [|a' [|b' [|]]]; try discriminate. reflexivity.
  - destruct M as [|r [|r' [|r'' [|]]]]; try discriminate. inversion HF as [|? ? A B]; subst. inversion B as [|? ? A' B']; subst.
    inversion B' as [|? ? A'' _]; subst.
    destruct r as [|a [|b [|c [|]]]]; try discriminate. destruct r' as [|a' [|b' [|c' [|]]]]; try discriminate.
    destruct r'' as [|a'' [|b'' [|c'' [|]]]]; try discriminate. reflexivity.
Qed.
Lemma canonical_range : forall e, (1 <= CanonicalDimension e <= 3)%nat.
Proof. intros []; simpl; lia. Qed.
Lemma newton_step_length : forall D e nodes x xi, length xi = CanonicalDimension e ->
  length (newton_step D e nodes x xi) = CanonicalDimension e.
Proof.
  intros D e nodes x xi H. unfold newton_step, vadd. rewrite LinAlgProofs.map2_length; [exact H|]. rewrite H. symmetry.
  destruct (Nat.eqb_spec D (CanonicalDimension e)) as [->|_]; unfold matvec; rewrite map_length; apply inverse_length;
    try apply canonical_range.
  - unfold jacobian. rewrite map_length, seq_length. reflexivity.
  - unfold jacobian. apply Forall_forall. intros r Hr. apply in_map_iff in Hr. destruct Hr as (c & <- & _).
    rewrite map_length, seq_length. reflexivity.
  - unfold matmul, transpose. rewrite !map_length, seq_length. reflexivity.
  - unfold matmul. apply Forall_forall. intros r Hr. apply in_map_iff in Hr. destruct Hr as (c & <- & _).
    rewrite map_length, seq_length. reflexivity.
Qed.
Lemma newton_loop_length : forall n D e nodes x r0 t xi, length xi = CanonicalDimension e ->
  length (newton_loop D e nodes x r0 t n xi) = CanonicalDimension e.
Proof.
  induction n as [|n IH]; intros D e nodes x r0 t xi H; cbn [newton_loop]; [apply newton_step_length; exact H|].
  destruct n as [|n]; [apply newton_step_length; exact H|].
  destruct (Rle_bool _ _); [|apply newton_step_length; exact H]. apply IH, newton_step_length. exact H.
Qed.
Lemma local_length : forall D e nodes x, length (local_coordinates D e nodes x) = CanonicalDimension e.
Proof.
  intros. unfold local_coordinates, local_coordinates_from. destruct (Rlt_bool _ _); [apply repeat_length|].
  apply newton_loop_length. apply repeat_length.
Qed.
Lemma first_containing_length : forall d p l, length (snd (first_containing d p l)) = CanonicalDimension (kind d).
Proof.
  induction l as [|id l IH]; simpl; [apply repeat_length|]. destruct (contains_local _ _ _) as [[|]|]; try exact IH. apply local_length.
Qed.

(** * The mapping built by init *)

Lemma combine_points : forall l : list barycentric_point_t,
  combine (seq 0 (length l)) l = map (fun i => (i, nth i l (0%Z, []))) (seq 0 (length l)).
Proof. intros l. apply combine_nth_seq. Qed.

(** Every barycentric point of a usable mapping refers to an element. *)
Definition embedded (d : domain) (bp : barycentric_point_t) : Prop :=
  length (snd bp) = CanonicalDimension (kind d) /\
  exists k, (k < length (connectivity d))%nat /\ fst bp = Z.of_nat k.

Lemma init_usable : forall d rest m, init d rest = Some m -> usable m = true ->
  m_domain m = d /\ outside_nodes (m_container m) = [] /\ length (barycentric_points (m_container m)) = length rest /\
  J_rows m = length rest /\ J_cols m = length (positions d) /\ J_entries m = mapping_entries d (m_container m) /\
  Forall (embedded d) (barycentric_points (m_container m)).
Proof.
  intros d rest m H U. unfold init in H. destruct (embed d rest) as [c|] eqn:E; [|discriminate].
  injection H as <-. unfold usable in U. destruct (outside_nodes c) as [|o os] eqn:O; cbn [m_container] in U.
  2:{ rewrite O in U. discriminate. }
  cbn [m_domain m_container J_rows J_cols J_entries]. destruct (embed_points d rest c E) as (grid & HB & EP & HO).
  repeat split; try assumption.
  - rewrite EP. apply map_length.
  - apply Forall_forall. intros bp Hbp. rewrite EP in Hbp. apply in_map_iff in Hbp. destruct Hbp as (p & <- & Hp).
    split; [apply first_containing_length|].
    destruct (barycentric_point_id d grid p HB) as [A|A]; [|exact A]. exfalso.
    apply In_nth_error in Hp. destruct Hp as [i Hi].
    assert (C : In i (outside_nodes c)) by (apply HO; exists p; split; [exact Hi|lia]). rewrite O in C. destruct C.
Qed.

Section Usable.
Variables (d : domain) (c : container).
Hypothesis WF : well_formed d.
Hypothesis EM : Forall (embedded d) (barycentric_points c).
Let N := length (positions d).
Let n := length (barycentric_points c).
Let J := mapping_entries d c.

Lemma embedded_row : forall bp, embedded d bp ->
  length (nth (Z.to_nat (fst bp)) (connectivity d) []) = length (L (kind d) (snd bp)) /\
  Forall (fun i => (i < N)%nat) (nth (Z.to_nat (fst bp)) (connectivity d) []).
Proof.
  intros bp [_ (k & Hk & ->)]. rewrite Nat2Z.id, length_L.
  apply (proj1 (Forall_forall _ _) WF). apply nth_In. exact Hk.
Qed.

Lemma nth_embedded : forall i, (i < n)%nat -> embedded d (nth i (barycentric_points c) (0%Z, [])).
Proof. intros i Hi. apply (proj1 (Forall_forall _ _) EM). apply nth_In. exact Hi. Qed.

Lemma entries_columns : Forall (fun t => (col_of t < N)%nat /\ (row_of t < n)%nat) J.
Proof.
  apply Forall_forall. intros t Ht. unfold J, mapping_entries in Ht. apply in_flat_map in Ht. destruct Ht as ([i bp] & Hi & Ht).
  unfold point_entries in Ht. rewrite map2_combine in Ht. apply in_map_iff in Ht. destruct Ht as ([node l] & <- & Hn).
  cbn [fst snd row_of col_of]. rewrite combine_points in Hi. apply in_map_iff in Hi. destruct Hi as (i' & [= <- <-] & Hi).
  apply in_seq in Hi. unfold col_of, row_of. cbn [fst snd]. split; [|unfold n; lia].
  destruct (embedded_row _ (nth_embedded i' ltac:(unfold n; lia))) as [_ F]. apply (proj1 (Forall_forall _ _) F).
  apply in_combine_l in Hn. exact Hn.
Qed.

Lemma row_sum : forall (g : nat -> R) i, (i < n)%nat ->
  let bp := nth i (barycentric_points c) (0%Z, []) in
  Rsum (map (fun j => coeff J i j * g j) (seq 0 N)) =
  Rsum (map2 (fun node l => g node * l) (nth (Z.to_nat (fst bp)) (connectivity d) []) (L (kind d) (snd bp))).
Proof.
  intros g i Hi bp. rewrite coeff_row_sum.
  2:{ eapply Forall_impl; [|exact entries_columns]. intros t [A _]. exact A. }
  unfold J, mapping_entries. rewrite Rsum_flat_map, combine_points, map_map.
  set (F := fun i => Rsum (map2 (fun node l => g node * l) (nth (Z.to_nat (fst (nth i (barycentric_points c) (0%Z, [])))) (connectivity d) [])
                                (L (kind d) (snd (nth i (barycentric_points c) (0%Z, [])))))).
  transitivity (Rsum (map (fun j => if Nat.eqb i j then F j else 0) (seq 0 n))); [|apply Rsum_delta; exact Hi].
  unfold F. clear F.
  apply Rsum_ext. intros i' _. unfold point_entries. rewrite !map2_combine, map_map. cbn [fst snd row_of col_of value_of].
  unfold row_of, col_of, value_of. cbn [fst snd]. rewrite (Nat.eqb_sym i' i).
  destruct (Nat.eqb i i').
  - apply Rsum_ext. intros p _. ring.
  - apply Rsum_zero. reflexivity.
Qed.

(** The rows produced by the interpolation *)
Lemma interpolate_row : forall D v i col, (i < n)%nat -> (col < D)%nat ->
  nth col (interpolate_at d D v (nth i (barycentric_points c) (0%Z, []))) 0 =
  Rsum (map (fun j => coeff J i j * nth col (nth j v []) 0) (seq 0 N)).
Proof.
  intros D v i col Hi Hc. rewrite (row_sum (fun j => nth col (nth j v []) 0) i Hi). unfold interpolate_at, interpolate.
  rewrite (nth_map_seq _ D 0%nat col) by exact Hc. rewrite !map2_combine.
  set (row := nth _ (connectivity d) []). set (ls := L _ _).
  assert (G : forall (row : list nat) (ls : list R), map (fun p => nth col (fst p) 0 * snd p) (combine (map (fun i => nth i v []) row) ls) =
     map (fun p => nth col (nth (fst p) v []) 0 * snd p) (combine row ls)).
  { clear. induction row as [|x row IH]; intros [|l ls]; simpl; try reflexivity. f_equal. apply IH. }
  rewrite G. reflexivity.
Qed.
End Usable.

Lemma map2_left : forall (A B C : Type) (f : A -> C) (a : list A) (b : list B), length a = length b ->
  map2 (fun x _ => f x) a b = map f a.
Proof. induction a as [|x a IH]; intros [|y b] H; try discriminate; simpl; [reflexivity|]. f_equal. apply IH. injection H as ->. reflexivity. Qed.

Lemma applyJ_result : forall d rest m D v old, well_formed d -> init d rest = Some m -> usable m = true ->
  field (length (positions d)) D v -> length old = length rest ->
  exists out, applyJ m D v old = Some out /\ apply m D v old = Some out /\ field (length rest) D out /\
    forall i c, (i < length rest)%nat -> (c < D)%nat ->
      nth c (nth i out []) 0 = Rsum (map (fun j => coeff (J_entries m) i j * nth c (nth j v []) 0) (seq 0 (length (positions d)))).
Proof.
  intros d rest m D v old WF HI U [Lv Fv] Ho. destruct (init_usable d rest m HI U) as (Ed & Eo & El & Er & Ec & Ej & EM).
  exists (map (interpolate_at d D v) (barycentric_points (m_container m))).
  assert (A : interpolate_field d (m_container m) D v old = Some (map (interpolate_at d D v) (barycentric_points (m_container m)))).
  { unfold interpolate_field. rewrite Lv, Nat.eqb_refl. cbn [negb].
    replace (Nat.eqb (length old) (length (barycentric_points (m_container m)))) with true.
    2:{ symmetry. apply Nat.eqb_eq. exact (eq_trans Ho (eq_sym El)). }
    cbn [negb]. rewrite Eo. cbn [length Nat.eqb negb andb]. f_equal. apply map2_left. exact (eq_trans El (eq_sym Ho)). }
  unfold applyJ, apply. rewrite U, Ed. split; [exact A|]. split; [exact A|]. split.
  - split; [rewrite map_length; exact El|]. apply Forall_forall. intros r Hr. apply in_map_iff in Hr. destruct Hr as (bp & <- & _).
    unfold interpolate_at, interpolate. rewrite map_length, seq_length. reflexivity.
  - intros i c Hi Hc. rewrite Ej. rewrite <- (interpolate_row d (m_container m) WF EM D v i c); [|rewrite El; exact Hi|exact Hc].
    f_equal. rewrite nth_indep with (d' := interpolate_at d D v (0%Z, [])); [|rewrite map_length; rewrite El; exact Hi].
    apply map_nth.
Qed.

Lemma power_alt : forall n D f v, field n D f -> field n D v ->
  power f v = Rsum (map (fun i => Rsum (map (fun c => nth c (nth i f []) 0 * nth c (nth i v []) 0) (seq 0 D))) (seq 0 n)).
Proof.
  intros n D f v [Lf Ff] [Lv Fv]. unfold power. subst n. revert v Lv Fv Ff.
  assert (R : forall a b : list R, length a = length b ->
     Rsum (map2 Rmult a b) = Rsum (map (fun c => nth c a 0 * nth c b 0) (seq 0 (length a)))).
  { induction a as [|x a IH]; intros [|y b] H; try discriminate; [reflexivity|]. simpl in *. injection H as H. rewrite (IH b H).
    rewrite <- seq_shift, map_map. reflexivity. }
  induction f as [|a f IH]; intros [|b v] Lv Fv Ff; try discriminate; [reflexivity|].
  inversion Ff as [|? ? Ha Ff']; inversion Fv as [|? ? Hb Fv']; subst. injection Lv as Lv.
  cbn [length seq map map2 Rsum fold_right]. rewrite (R a b) by congruence. f_equal.
  specialize (IH v Lv Fv' Ff'). unfold Rsum in IH at 1. rewrite IH. rewrite <- seq_shift, map_map. reflexivity.
Qed.

Lemma applyJT_nth : forall m D f old j c, usable m = true -> (j < length old)%nat -> (c < D)%nat ->
  nth c (nth j (applyJT m D f old) []) 0 = nth c (nth j old []) 0 +
    Rsum (map (fun i => coeff (J_entries m) i j * nth c (nth i f []) 0) (seq 0 (J_rows m))).
Proof.
  intros m D f old j c U Hj Hc. unfold applyJT. rewrite U. rewrite (nth_map_seq' _ (length old) 0%nat j) by exact Hj.
  rewrite (nth_map_seq _ D 0%nat c) by exact Hc. reflexivity.
Qed.

Lemma applyJT_field : forall m D f old, field (length old) D old -> field (length old) D (applyJT m D f old).
Proof.
  intros m D f old H. unfold applyJT. destruct (usable m); [|exact H]. split; [rewrite map_length, seq_length; reflexivity|].
  apply Forall_forall. intros r Hr. apply in_map_iff in Hr. destruct Hr as (j & <- & _). rewrite map_length, seq_length. reflexivity.
Qed.

Lemma adjoint : forall d rest m D v f old out0 out, well_formed d -> init d rest = Some m -> usable m = true ->
  field (length (positions d)) D v -> field (length rest) D f -> field (length (positions d)) D old -> length out0 = length rest ->
  applyJ m D v out0 = Some out ->
  power (applyJT m D f old) v = power old v + power f out.
Proof.
  intros d rest m D v f old out0 out WF HI U Hv Hf Hold Ho E.
  destruct (applyJ_result d rest m D v out0 WF HI U Hv Ho) as (out' & E' & _ & Fo & Ro). rewrite E in E'. injection E' as <-.
  pose proof (init_usable d rest m HI U) as (_ & _ & _ & Er & _).
  rewrite (power_alt (length (positions d)) D old v Hold Hv), (power_alt (length rest) D f out Hf Fo).
  assert (Hjt : field (length (positions d)) D (applyJT m D f old)).
  { destruct Hold as [Lo Fold]. rewrite <- Lo. apply applyJT_field. split; [reflexivity|exact Fold]. }
  rewrite (power_alt _ D _ v Hjt Hv). set (N := length (positions d)) in *. set (n := length rest) in *.
  transitivity (Rsum (map (fun j => Rsum (map (fun c => nth c (nth j old []) 0 * nth c (nth j v []) 0) (seq 0 D)) +
     Rsum (map (fun i => Rsum (map (fun c => nth c (nth i f []) 0 * (coeff (J_entries m) i j * nth c (nth j v []) 0)) (seq 0 D))) (seq 0 n))) (seq 0 N))).
  - apply Rsum_ext. intros j Hj. apply in_seq in Hj. rewrite Rsum_swap, <- Rsum_plus. apply Rsum_ext. intros c Hc. apply in_seq in Hc.
    rewrite applyJT_nth; [|exact U|rewrite (proj1 Hold); lia|lia]. rewrite Er, Rmult_plus_distr_r. f_equal.
    rewrite <- Rsum_scal_r. apply Rsum_ext. intros i _. ring.
  - rewrite Rsum_plus. f_equal. rewrite Rsum_swap. apply Rsum_ext. intros i Hi. apply in_seq in Hi. rewrite Rsum_swap.
    apply Rsum_ext. intros c Hc. apply in_seq in Hc. rewrite Rsum_scal_l. f_equal. symmetry. apply Ro; lia.
Qed.

(** Columns of J sum to one over the parent nodes *)
Lemma row_total : forall d rest m i, well_formed d -> init d rest = Some m -> usable m = true -> (i < length rest)%nat ->
  Rsum (map (fun j => coeff (J_entries m) i j) (seq 0 (length (positions d)))) = 1.
Proof.
  intros d rest m i WF HI U Hi. destruct (init_usable d rest m HI U) as (Ed & Eo & El & Er & Ec & Ej & EM). rewrite Ej.
  rewrite (Rsum_ext _ _ (fun j => coeff (mapping_entries d (m_container m)) i j * 1)) by (intros; ring).
  assert (Hi' : (i < length (barycentric_points (m_container m)))%nat) by (rewrite El; exact Hi).
  rewrite (row_sum d (m_container m) WF EM (fun _ => 1) i Hi'). pose proof (nth_embedded d (m_container m) EM i Hi') as Hbp.
  destruct (embedded_row d WF _ Hbp) as [HL _]. destruct Hbp as [Hxi _].
  etransitivity; [|exact (partition_of_unity (kind d) _ Hxi)]. f_equal. revert HL. generalize (L (kind d) (snd (nth i (barycentric_points (m_container m)) (0%Z, [])))) as ls.
  generalize (nth (Z.to_nat (fst (nth i (barycentric_points (m_container m)) (0%Z, [])))) (connectivity d) []) as row.
  clear. induction row as [|x row IH]; intros [|l ls] H; try discriminate; [reflexivity|]. simpl. rewrite IH by (simpl in H; congruence). f_equal. ring.
Qed.

Lemma total_force : forall d rest m D f old, well_formed d -> init d rest = Some m -> usable m = true ->
  field (length rest) D f -> field (length (positions d)) D old ->
  total D (applyJT m D f old) = vadd (total D old) (total D f).
Proof.
  intros d rest m D f old WF HI U Hf Hold. pose proof (init_usable d rest m HI U) as (_ & _ & _ & Er & _).
  unfold total, vadd.
  assert (G : forall (h g k : nat -> R) s, (forall c, In c s -> k c = h c + g c) -> map k s = map2 Rplus (map h s) (map g s)).
  { clear. induction s as [|c s IH]; intros H; [reflexivity|]. simpl. rewrite (H c) by (left; reflexivity). f_equal. apply IH. intros; apply H; right; assumption. }
  apply G. intros c Hc. apply in_seq in Hc.
  assert (S : forall n (l : list (list R)), length l = n -> Rsum (map (fun v => nth c v 0) l) = Rsum (map (fun i => nth c (nth i l []) 0) (seq 0 n))).
  { clear. intros n l <-. induction l as [|x l IH]; [reflexivity|]. simpl. rewrite IH. rewrite <- seq_shift, map_map. reflexivity. }
  assert (LT : length (applyJT m D f old) = length (positions d)).
  { unfold applyJT. rewrite U, map_length, seq_length. apply Hold. }
  rewrite (S _ _ LT), (S _ _ (proj1 Hold)), (S _ _ (proj1 Hf)).
  transitivity (Rsum (map (fun j => nth c (nth j old []) 0 + Rsum (map (fun i => coeff (J_entries m) i j * nth c (nth i f []) 0) (seq 0 (length rest)))) (seq 0 (length (positions d))))).
  - apply Rsum_ext. intros j Hj. apply in_seq in Hj. rewrite applyJT_nth; [rewrite Er; reflexivity|exact U|rewrite (proj1 Hold); lia|lia].
  - rewrite Rsum_plus. f_equal. rewrite Rsum_swap. apply Rsum_ext. intros i Hi. apply in_seq in Hi. rewrite Rsum_scal_r.
    etransitivity; [apply Rmult_eq_compat_r; apply (row_total d rest m i WF HI U); lia|ring].
Qed.

(** * Constraints *)

Lemma filter_seq_sorted : forall p n s a b, (a <= b)%nat -> (b < length (filter p (seq s n)))%nat ->
  (nth a (filter p (seq s n)) 0 <= nth b (filter p (seq s n)) 0)%nat.
Proof.
  intros p. induction n as [|n IH]; intros s a b Hab Hb; cbn [seq filter] in *; [simpl in Hb; lia|].
  destruct (p s); [|apply IH; assumption]. simpl in Hb. destruct a as [|a]; destruct b as [|b]; simpl; [lia| |lia|apply IH; lia].
  assert (Hin : In (nth b (filter p (seq (S s) n)) 0%nat) (filter p (seq (S s) n))) by (apply nth_In; lia).
  apply filter_In in Hin. destruct Hin as [Hin _]. apply in_seq in Hin. lia.
Qed.

Lemma column_search : forall ts n j i, (i < n)%nat ->
  let column := inner_vector ts n j in
  let index := fun p => fst (nth p column (0%nat, 0)) in
  let id := searchLowerIndex index 0 (length column) i in
  (Nat.ltb id (length column) && Nat.eqb (index id) i)%bool = stored ts i j /\
  (stored ts i j = true -> snd (nth id column (0%nat, 0)) = coeff ts i j).
Proof.
  intros ts n j i Hi column index id. set (sl := filter (fun i => stored ts i j) (seq 0 n)).
  assert (LC : length column = length sl) by (unfold column, inner_vector; rewrite map_length; reflexivity).
  assert (NC : forall p, (p < length sl)%nat -> nth p column (0%nat, 0) = (nth p sl 0%nat, coeff ts (nth p sl 0%nat) j)).
  { intros p Hp. unfold column, inner_vector. fold sl. rewrite nth_indep with (d' := (fun i => (i, coeff ts i j)) 0%nat) by (rewrite map_length; exact Hp).
    apply (map_nth (fun i => (i, coeff ts i j))). }
  assert (NI : forall p, (p < length sl)%nat -> index p = nth p sl 0%nat) by (intros p Hp; unfold index; rewrite NC by exact Hp; reflexivity).
  destruct (search_spec index i 0 (length column)) as (A & B & C); [lia| |].
  { intros a b Hab Hb. rewrite LC in Hb. rewrite !NI by lia. apply filter_seq_sorted; [lia|exact Hb]. }
  fold id in A, B, C.
  assert (IN : stored ts i j = true <-> In i sl).
  { unfold sl. rewrite filter_In, in_seq. split; [intros ->; split; [lia|reflexivity]|intros [_ H]; exact H]. }
  destruct (Nat.ltb id (length column) && Nat.eqb (index id) i)%bool eqn:E.
  - apply andb_true_iff in E. destruct E as [E1 E2]. apply Nat.ltb_lt in E1. apply Nat.eqb_eq in E2. rewrite LC in E1.
    rewrite NI in E2 by exact E1. assert (S : stored ts i j = true) by (apply IN; rewrite <- E2; apply nth_In; exact E1).
    split; [symmetry; exact S|]. intros _. rewrite NC by exact E1. cbn [snd]. rewrite E2. reflexivity.
  - destruct (stored ts i j) eqn:S; [|split; [reflexivity|discriminate]]. exfalso. destruct IN as [IN _]. specialize (IN eq_refl).
    destruct (In_nth sl i 0%nat IN) as (p & Hp & Ep). rewrite LC in *.
    assert (Hid : (id <= p)%nat). { destruct (Nat.le_gt_cases id p) as [G|G]; [exact G|]. specialize (B p). rewrite NI in B by exact Hp. lia. }
    assert (Hlt : (id < length sl)%nat) by lia. specialize (C id). rewrite NI in C by exact Hlt.
    pose proof (filter_seq_sorted (fun i => stored ts i j) n 0 id p Hid) as M. fold sl in M. specialize (M Hp).
    assert (Eq : index id = i) by (rewrite NI by exact Hlt; lia). rewrite Eq, Nat.eqb_refl in E.
    apply andb_false_iff in E. destruct E as [E|E]; [|discriminate]. apply Nat.ltb_ge in E. lia.
Qed.

Definition line_dim (D : nat) (l : line) : Prop := Forall (fun e => length (snd e) = D) l.

Lemma addCol_dim : forall D l col x, line_dim D l -> length x = D -> line_dim D (addCol l col x).
Proof.
  intros D l col x H Hx. induction H as [|[c y] l Hy H IH]; simpl.
  - constructor; [exact Hx|constructor].
  - destruct (Nat.eqb c col); constructor; try assumption. cbn [snd] in *. unfold vadd. rewrite LinAlgProofs.map2_length; congruence.
Qed.
Lemma addCol_rate : forall D l col x v, line_dim D l -> length x = D ->
  constraint_rate (addCol l col x) v = constraint_rate l v + Rsum (map2 Rmult x (nth col v [])).
Proof.
  intros D l col x v H Hx. unfold constraint_rate. induction H as [|[c y] l Hy H IH]; cbn [addCol map Rsum fold_right fst snd] in *; [lra|].
  destruct (Nat.eqb_spec c col) as [->|_]; cbn [map fold_right fst snd].
  - pose proof (dot_vadd_l y x (nth col v [])) as P. rewrite <- !vdot_dot in P. unfold vdot in P. rewrite P by congruence. unfold Rsum. lra.
  - unfold Rsum in IH at 1. rewrite IH. unfold Rsum. lra.
Qed.

Lemma transfer_entry_spec : forall m i val row v D, (i < J_rows m)%nat -> line_dim D row -> length val = D ->
  line_dim D (transfer_entry m i val row) /\
  constraint_rate (transfer_entry m i val row) v = constraint_rate row v +
    Rsum (map (fun j => coeff (J_entries m) i j * Rsum (map2 Rmult val (nth j v []))) (seq 0 (J_cols m))).
Proof.
  intros m i val row v D Hi HD HV. unfold transfer_entry. generalize (seq 0 (J_cols m)) as cols.
  intros cols. revert row HD. induction cols as [|j cols IH]; intros row HD; cbn [fold_left map Rsum fold_right].
  { split; [exact HD|]. unfold Rsum. simpl. lra. }
  destruct (column_search (J_entries m) (J_rows m) j i Hi) as [A B]. cbv zeta in A, B. rewrite A.
  destruct (stored (J_entries m) i j) eqn:S.
  - rewrite (B eq_refl). set (x := map (fun x => x * coeff (J_entries m) i j) val).
    assert (Hx : length x = D) by (unfold x; rewrite map_length; exact HV).
    destruct (IH (addCol row j x) (addCol_dim D row j x HD Hx)) as [P Q]. split; [exact P|]. rewrite Q.
    rewrite (addCol_rate D row j x v HD Hx).
    assert (Ex : Rsum (map2 Rmult x (nth j v [])) = coeff (J_entries m) i j * Rsum (map2 Rmult val (nth j v []))).
    { unfold x. generalize (nth j v []) as w. clear. induction val as [|a val IH]; intros w; [simpl; lra|].
      destruct w as [|b w]; [simpl; lra|]. simpl. rewrite IH. lra. }
    rewrite Ex. unfold Rsum. lra.
  - destruct (IH row HD) as [P Q]. split; [exact P|]. rewrite Q. rewrite (not_stored _ _ _ S). unfold Rsum. lra.
Qed.

Lemma transfer_row_spec : forall m cols row v out D, (forall i val, (i < J_rows m)%nat -> length val = D ->
     Rsum (map (fun j => coeff (J_entries m) i j * Rsum (map2 Rmult val (nth j v []))) (seq 0 (J_cols m))) =
     Rsum (map2 Rmult val (nth i out []))) ->
  Forall (fun e => (fst e < J_rows m)%nat /\ length (snd e) = D) cols -> line_dim D row ->
  line_dim D (fold_left (fun output_row col => transfer_entry m (fst col) (snd col) output_row) cols row) /\
  constraint_rate (fold_left (fun output_row col => transfer_entry m (fst col) (snd col) output_row) cols row) v =
  constraint_rate row v + constraint_rate cols out.
Proof.
  intros m cols row v out D HJ H. revert row. induction H as [|[i val] cols [Hi Hv] H IH]; intros row HD; cbn [fold_left].
  - split; [exact HD|]. unfold constraint_rate at 3. simpl. lra.
  - cbn [fst snd] in *. destruct (transfer_entry_spec m i val row v D Hi HD Hv) as [P Q]. destruct (IH _ P) as [P' Q'].
    split; [exact P'|]. rewrite Q', Q, HJ by assumption. unfold constraint_rate. cbn [map Rsum fold_right fst snd]. unfold Rsum. lra.
Qed.

Lemma line_of_writeLine : forall H row f r, line_of (writeLine H row f) r = if Nat.eqb r row then f (line_of H r) else line_of H r.
Proof.
  induction H as [|[k l] H IH]; intros row f r.
  - unfold line_of. cbn [writeLine List.find fst]. rewrite (Nat.eqb_sym row r). destruct (Nat.eqb r row); reflexivity.
  - cbn [writeLine]. destruct (Nat.eqb_spec k row) as [->|Hk].
    + unfold line_of. cbn [List.find fst]. rewrite (Nat.eqb_sym row r). destruct (Nat.eqb r row); reflexivity.
    + specialize (IH row f r). unfold line_of in *. cbn [List.find fst]. destruct (Nat.eqb_spec k r) as [->|Hr].
      * destruct (Nat.eqb_spec r row); [congruence|reflexivity].
      * exact IH.
Qed.
Lemma line_of_dim : forall H D r, Forall (fun x => line_dim D (snd x)) H -> line_dim D (line_of H r).
Proof.
  intros H D r F. unfold line_of. destruct (List.find _ H) as [x|] eqn:E; [|constructor]. apply find_some in E.
  apply (proj1 (Forall_forall _ _) F). apply E.
Qed.
Lemma writeLine_dim : forall H D row f, Forall (fun x => line_dim D (snd x)) H -> (forall l, line_dim D l -> line_dim D (f l)) ->
  Forall (fun x => line_dim D (snd x)) (writeLine H row f).
Proof.
  intros H D row f F Hf. induction F as [|[k l] H Hl F IH]; cbn [writeLine].
  - constructor; [|constructor]. apply Hf. constructor.
  - destruct (Nat.eqb k row); constructor; try assumption. apply Hf. exact Hl.
Qed.

Lemma constraints_transfer : forall m input output v out D r, (forall i val, (i < J_rows m)%nat -> length val = D ->
     Rsum (map (fun j => coeff (J_entries m) i j * Rsum (map2 Rmult val (nth j v []))) (seq 0 (J_cols m))) =
     Rsum (map2 Rmult val (nth i out []))) ->
  usable m = true -> constraints (J_rows m) D input -> Forall (fun x => line_dim D (snd x)) output ->
  constraint_rate (line_of (applyJT_constraints m input output) r) v =
  constraint_rate (line_of output r) v + constraint_rate (line_of input r) out.
Proof.
  intros m input output v out D r HJ U [ND F] FO. unfold applyJT_constraints. rewrite U. clear U.
  revert output FO ND. induction F as [|[k l] input Hl F IH]; intros output FO ND; cbn [fold_left].
  - unfold line_of at 3. unfold constraint_rate at 3. simpl. lra.
  - cbn [fst snd map] in *. inversion ND as [|? ? Hk ND']; subst.
    assert (FO' : Forall (fun x => line_dim D (snd x)) (match l with [] => output | _ => writeLine output k (fun output_row => fold_left (fun output_row col => transfer_entry m (fst col) (snd col) output_row) l output_row) end)).
    { destruct l; [exact FO|]. apply writeLine_dim; [exact FO|]. intros l' Hl'. apply (transfer_row_spec m _ l' v out D HJ Hl Hl'). }
    etransitivity; [apply (IH _ FO' ND')|].
    assert (E1 : constraint_rate (line_of (match l with [] => output | _ => writeLine output k (fun output_row => fold_left (fun output_row col => transfer_entry m (fst col) (snd col) output_row) l output_row) end) r) v =
       constraint_rate (line_of output r) v + (if Nat.eqb r k then constraint_rate l out else 0)).
    { destruct l as [|e l].
      - unfold constraint_rate at 3. simpl. destruct (Nat.eqb r k); lra.
      - rewrite line_of_writeLine. destruct (Nat.eqb r k); [|lra].
        apply (transfer_row_spec m (e :: l) (line_of output r) v out D HJ Hl). apply line_of_dim. exact FO. }
    etransitivity; [apply Rplus_eq_compat_r; exact E1|]. clear E1. unfold line_of at 4. cbn [List.find fst]. rewrite (Nat.eqb_sym k r). destruct (Nat.eqb_spec r k) as [->|_].
    + cbn [snd]. assert (N : line_of input k = []).
      { unfold line_of. match goal with |- match ?f with _ => _ end = _ => destruct f as [x|] eqn:E; [|reflexivity] end. exfalso. apply find_some in E. destruct E as [E E'].
        apply Nat.eqb_eq in E'. apply Hk. rewrite <- E'. apply in_map. exact E. }
      rewrite N. unfold constraint_rate at 3. simpl. lra.
    + fold (line_of input r). lra.
Qed.
