(** Eigenvalues are finitely many; the stiffness of a solid annihilates the translations; histories of requests (C90). *)

From Coq Require Import ZArith Reals Lra Lia Classical.
From Coquelicot Require Import Coquelicot.
From Coq Require Import List Arith Bool.
From Verif Require Import GridGeoModel ShapeModel ShapeSpec ShapeProofs LinAlg LinAlgProofs BarycentricModel MappingSpec TensorModel TensorSpec
  MaterialModel MaterialSpec MaterialProofs SparseModel SparseProofs Sums HyperModel HyperSpec HyperProofs HyperProofs2 HyperProofs3 HyperProofs4 HyperProperties
  SpectrumModel SpectrumSpec.
Import ListNotations.
Open Scope R_scope.

(** ** Linear combinations *)

Definition combination (l : list (R * (nat -> R))) (i : nat) : R := Rsum (map (fun p => fst p * snd p i) l).

Lemma combination_app a b i : combination (a ++ b) i = combination a i + combination b i.
Proof. unfold combination. rewrite map_app. apply Rsum_app. Qed.

(** More than n vectors of R^n are dependent. *)
Lemma dependent n : forall vs : list (nat -> R), (n < length vs)%nat ->
  exists cs : list R, length cs = length vs /\ (exists c, In c cs /\ c <> 0) /\ forall i, (i < n)%nat -> combination (combine cs vs) i = 0.
Proof.
  induction n as [|n IH]; intros vs H.
  - destruct vs as [|v vs]; [cbn in H; lia|]. exists (1 :: map (fun _ => 0) vs). split; [cbn; rewrite map_length; reflexivity|].
    split; [exists 1; split; [left; reflexivity|lra]|]. intros i Hi. lia.
  - destruct (classic (exists v, In v vs /\ v n <> 0)) as [(v & Hv & Nz)|None].
    + apply in_split in Hv. destruct Hv as (l1 & l2 & ->). rewrite app_length in H. cbn in H.
      set (w := fun u : nat -> R => fun i => u i - u n / v n * v i).
      destruct (IH (map w (l1 ++ l2))) as (cs & Lc & (c & Hc & Nc) & E).
      { rewrite map_length, app_length. lia. }
      rewrite map_length, app_length in Lc.
      set (c1 := firstn (length l1) cs). set (c2 := skipn (length l1) cs).
      assert (L1 : length c1 = length l1) by (unfold c1; rewrite firstn_length; lia).
      assert (L2 : length c2 = length l2) by (unfold c2; rewrite skipn_length; lia).
      assert (Ec : cs = c1 ++ c2) by (symmetry; apply firstn_skipn).
      set (t := - combination (combine cs (l1 ++ l2)) n / v n).
      exists (c1 ++ t :: c2). split; [rewrite !app_length; cbn; lia|]. split.
      { exists c. split; [|exact Nc]. rewrite Ec in Hc. apply in_app_or in Hc. apply in_or_app. destruct Hc; [left|right; right]; assumption. }
      assert (CA : forall (a1 a2 : list R) (b1 b2 : list (nat -> R)), length a1 = length b1 -> combine (a1 ++ a2) (b1 ++ b2) = combine a1 b1 ++ combine a2 b2).
      { induction a1 as [|x a1 IHa]; intros a2 b1 b2 L; destruct b1 as [|y b1]; cbn in L; try lia; [reflexivity|]. cbn. rewrite IHa by lia. reflexivity. }
      assert (W : forall (a : list R) (b : list (nat -> R)) i, combination (combine a (map w b)) i = combination (combine a b) i - combination (combine a b) n / v n * v i).
      { induction a as [|x a IHa]; intros b i; [unfold combination; cbn; unfold Rdiv; ring|]. destruct b as [|y b]; [unfold combination; cbn; unfold Rdiv; ring|].
        specialize (IHa b i). unfold combination in *. cbn [combine map Rsum fold_right fst snd] in *. change (fold_right Rplus 0) with Rsum in *. rewrite IHa. unfold w. field. exact Nz. }
      intros i Hi. rewrite CA by exact L1. rewrite combination_app. cbn [combine].
      change ((t, v) :: combine c2 l2) with ([(t, v)] ++ combine c2 l2). rewrite combination_app.
      assert (Q : combination (combine cs (l1 ++ l2)) i = combination (combine c1 l1) i + combination (combine c2 l2) i).
      { rewrite Ec, CA by exact L1. apply combination_app. }
      assert (T : combination [(t, v)] i = t * v i) by (unfold combination; cbn; ring). rewrite T.
      destruct (Nat.eq_dec i n) as [-> |Ne].
      * unfold t. rewrite Q. field. exact Nz.
      * assert (Hi' : (i < n)%nat) by lia. pose proof (E i Hi') as Z. rewrite W in Z. unfold t. rewrite Q in Z. lra.
    + destruct (IH vs) as (cs & Lc & Nc & E); [lia|]. exists cs. split; [exact Lc|]. split; [exact Nc|].
      intros i Hi. destruct (Nat.eq_dec i n) as [-> |Ne]; [|apply E; lia].
      assert (Z : forall v, In v vs -> v n = 0). { intros v Hv. destruct (Req_dec (v n) 0) as [|N]; [assumption|]. exfalso. apply None. exists v. split; assumption. }
      clear - Z. revert cs. induction vs as [|v vs IHv]; intros cs; destruct cs as [|c cs]; try reflexivity.
      unfold combination. cbn [combine map Rsum fold_right fst snd]. change (fold_right Rplus 0) with Rsum. fold (combination (combine cs vs) n).
      rewrite IHv by (intros u Hu; apply Z; right; exact Hu). rewrite (Z v) by (left; reflexivity). ring.
Qed.

Section Eigen.
Variables (n : nat) (A : nat -> nat -> R).
Definition image (v : nat -> R) (i : nat) : R := Rsum (map (fun j => A i j * v j) (seq 0 n)).

Definition pair_ok (p : R * (nat -> R)) : Prop :=
  (exists i, (i < n)%nat /\ snd p i <> 0) /\ forall i, (i < n)%nat -> image (snd p) i = fst p * snd p i.

Lemma image_combination l i : image (combination l) i = Rsum (map (fun p => fst p * image (snd p) i) l).
Proof.
  unfold image. induction l as [|p l IH]; cbn [map Rsum fold_right].
  - apply Rsum_zero. intros j _. unfold combination. cbn. ring.
  - change (fold_right Rplus 0) with Rsum. rewrite <- IH, <- Rsum_scal_l, <- Rsum_plus. apply Rsum_ext. intros j _.
    unfold combination. cbn [map Rsum fold_right]. change (fold_right Rplus 0) with Rsum. ring.
Qed.

(** Eigenvectors of distinct eigenvalues are independent. *)
Lemma independent ps : forall cs : list R, length cs = length ps -> NoDup (map fst ps) -> Forall pair_ok ps ->
  (forall i, (i < n)%nat -> combination (combine cs (map snd ps)) i = 0) -> Forall (fun c => c = 0) cs.
Proof.
  induction ps as [|p ps IH]; intros cs Lc ND OK Z; destruct cs as [|c cs]; cbn in Lc; try lia; [constructor|].
  inversion_clear ND as [|? ? Nin ND']. apply Forall_cons_iff in OK. destruct OK as [[(i0 & Hi0 & Nz) Hp] OK].
  set (ds := map (fun q => fst q * (fst (snd q) - fst p)) (combine cs ps)).
  assert (Ld : length ds = length ps) by (unfold ds; rewrite map_length, combine_length; lia).
  assert (D : Forall (fun x => x = 0) ds).
  { apply (IH ds Ld ND' OK). intros i Hi.
    assert (E1 : image (combination (combine (c :: cs) (map snd (p :: ps)))) i = 0).
    { unfold image. apply Rsum_zero. intros j Hj. apply in_seq in Hj. rewrite Z by lia. ring. }
    rewrite image_combination in E1. pose proof (Z i Hi) as E2.
    unfold combination in E2. cbn [map combine Rsum fold_right fst snd] in E1, E2. change (fold_right Rplus 0) with Rsum in *.
    rewrite Hp in E1 by exact Hi.
    assert (S : forall (cs : list R) (ps : list (R * (nat -> R))), Forall pair_ok ps ->
       combination (combine (map (fun q => fst q * (fst (snd q) - fst p)) (combine cs ps)) (map snd ps)) i =
       Rsum (map (fun q => fst q * image (snd q) i) (combine cs (map snd ps))) - fst p * Rsum (map (fun q => fst q * snd q i) (combine cs (map snd ps)))).
    { clear - Hi. intros cs ps. revert cs. induction ps as [|q ps IHp]; intros cs OK; destruct cs as [|c cs]; try (unfold combination; cbn; ring).
      apply Forall_cons_iff in OK. destruct OK as [[_ Hq] OK]. specialize (IHp cs OK).
      unfold combination in *. cbn [map combine Rsum fold_right fst snd] in *. change (fold_right Rplus 0) with Rsum in *. rewrite IHp, Hq by exact Hi. ring. }
    unfold ds. rewrite S by exact OK. nra. }
  assert (Zs : Forall (fun x => x = 0) cs).
  { apply Forall_forall. intros x Hx. apply In_nth with (d := 0) in Hx. destruct Hx as (k & Hk & <-).
    set (q0 := (0, fun _ : nat => 0) : R * (nat -> R)).
    assert (Dk : nth k ds 0 = nth k cs 0 * (fst (nth k ps q0) - fst p)).
    { unfold ds. rewrite (nth_indep _ 0 ((fun q => fst q * (fst (snd q) - fst p)) (0, q0))) by (rewrite map_length, combine_length; lia).
      rewrite (map_nth (fun q => fst q * (fst (snd q) - fst p))), combine_nth by lia. reflexivity. }
    assert (Zk : nth k ds 0 = 0). { apply (proj1 (Forall_forall _ _) D). apply nth_In. lia. }
    rewrite Dk in Zk. apply Rmult_integral in Zk. destruct Zk as [Zk|Zk]; [exact Zk|].
    exfalso. apply Nin. replace (fst p) with (fst (nth k ps q0)) by lra. apply in_map, nth_In. lia. }
  constructor; [|exact Zs].
  pose proof (Z i0 Hi0) as E. unfold combination in E. cbn [map combine Rsum fold_right fst snd] in E. change (fold_right Rplus 0) with Rsum in E.
  assert (R0 : Rsum (map (fun q => fst q * snd q i0) (combine cs (map snd ps))) = 0).
  { apply Rsum_zero. intros q Hq. destruct q as [a b]. apply in_combine_l in Hq. cbn. rewrite (proj1 (Forall_forall _ _) Zs a Hq). ring. }
  rewrite R0 in E. destruct (Rmult_integral c (snd p i0)) as [H|H]; [lra|exact H|contradiction].
Qed.

Lemma eigenvalues_bounded l : NoDup l -> Forall (eigenvalue n A) l -> (length l <= n)%nat.
Proof.
  intros ND F.
  assert (P : exists ps, map fst ps = l /\ Forall pair_ok ps).
  { clear ND. induction F as [|x l (v & Hv) F IH]; [exists []; split; [reflexivity|constructor]|].
    destruct IH as (ps & E & O). exists ((x, v) :: ps). split; [cbn; rewrite E; reflexivity|constructor; assumption]. }
  destruct P as (ps & <- & OK). rewrite map_length. destruct (le_lt_dec (length ps) n) as [H|H]; [exact H|]. exfalso.
  destruct (dependent n (map snd ps)) as (cs & Lc & (c & Hc & Nc) & Z); [rewrite map_length; exact H|].
  rewrite map_length in Lc. pose proof (independent ps cs Lc ND OK Z) as W. apply Nc. exact (proj1 (Forall_forall _ _) W c Hc).
Qed.

Lemma eigenvalues_listed : exists l, all_eigenvalues n A l.
Proof.
  assert (G : forall k, (exists l, all_eigenvalues n A l) \/ exists l, length l = k /\ NoDup l /\ Forall (eigenvalue n A) l).
  { induction k as [|k [IH|(l & Lk & ND & F)]]; [right; exists []; split; [reflexivity|split; constructor]|left; exact IH|].
    destruct (classic (exists x, eigenvalue n A x /\ ~ In x l)) as [(x & Ex & Nx)|No].
    - right. exists (x :: l). split; [cbn; lia|]. split; constructor; assumption.
    - left. exists l. intros x. split; [apply (proj1 (Forall_forall _ _) F)|].
      intros Ex. destruct (In_dec Req_EM_T x l) as [I|I]; [exact I|]. exfalso. apply No. exists x. split; assumption. }
  destruct (G (S n)) as [H|(l & Ll & ND & F)]; [exact H|]. pose proof (eigenvalues_bounded l ND F). lia.
Qed.
End Eigen.

(** ** Translations *)

Lemma symmetric_K m d x i j : solid d -> let n := (length (positions d) * 3)%nat in
  coeff (K (assemble_stiffness m d x) n) i j = coeff (K (assemble_stiffness m d x) n) j i.
Proof.
  intros S n. destruct (C56_matrix m d x (-1) 0 S) as (Sy & _ & E & _). specialize (Sy i j). rewrite !E in Sy. fold n in Sy. lra.
Qed.

Lemma K_row m d x N v p c : solid d -> distinct_nodes d -> length (positions d) = N -> field N 3 v -> (c < 3)%nat ->
  Rsum (map (fun j => coeff (K (assemble_stiffness m d x) (N * 3)) (p * 3 + c) j * nth j (concat v) 0) (seq 0 (N * 3))) =
  Rsum (map (fun row => Rsum (map (fun a => if Nat.eqb (nth a row 0%nat) p then
     Rsum (map (fun b => sum3 (fun k => entries (block m d x row a b) c k * entries v (nth b row 0%nat) k)) (seq 0 (length row))) else 0)
     (seq 0 (length row)))) (connectivity d)).
Proof.
  intros S ND LN Fv Hc. rewrite <- (operator_row m d x v N p c) by (try assumption; apply S).
  destruct (C56_matrix m d x 1 0 S) as (_ & _ & E & D). rewrite LN in E, D.
  destruct (D (concat v) (repeat 0 (N * 3)) (repeat_length _ _)) as (DF' & Q & V).
  destruct (addDForce_spec (assemble_stiffness m d x) (N * 3) 1 (concat v) (repeat 0 (N * 3))) as (DF2 & Q2 & _ & V2).
  { apply assemble_inside; [apply S|exact LN]. } { apply repeat_length. }
  rewrite Q in Q2. injection Q2 as <-. specialize (V (p * 3 + c)%nat). rewrite V2 in V.
  set (T := tsum _ _) in *.
  assert (W : T = - Rsum (map (fun j => coeff (addKToMatrix (assemble_stiffness m d x) (N * 3) 1 0) (0 + (p * 3 + c)) (0 + j) * nth j (concat v) 0) (seq 0 (N * 3)))) by lra.
  rewrite W, <- Rsum_opp. apply Rsum_ext. intros j _. rewrite E. ring.
Qed.

Lemma geometric_linear T da (db : nat -> R) :
  geometric T da db = geometric T da (fun k => delta k 0) * db 0%nat + geometric T da (fun k => delta k 1) * db 1%nat + geometric T da (fun k => delta k 2) * db 2%nat.
Proof. unfold geometric, sum3, delta. cbn [Nat.eqb]. ring. Qed.
Lemma material_linear m F da (db : list R) i j :
  material_block m F da db i j = material_block m F da (map (fun k => delta k 0) (seq 0 3)) i j * nth 0 db 0 +
    material_block m F da (map (fun k => delta k 1) (seq 0 3)) i j * nth 1 db 0 + material_block m F da (map (fun k => delta k 2) (seq 0 3)) i j * nth 2 db 0.
Proof.
  unfold material_block. set (D := PK2_stress_jacobian _ _ _). clearbody D.
  assert (G : forall beta, entries (B F db) beta j = entries (B F (map (fun k => delta k 0) (seq 0 3))) beta j * nth 0 db 0 +
    entries (B F (map (fun k => delta k 1) (seq 0 3))) beta j * nth 1 db 0 + entries (B F (map (fun k => delta k 2) (seq 0 3))) beta j * nth 2 db 0).
  { intros beta. unfold B, entries, delta. cbn [map seq nth Nat.eqb].
    destruct beta as [|[|[|[|[|[|[|beta]]]]]]]; destruct j as [|[|[|[|j]]]]; cbn [nth]; ring. }
  unfold sum6. rewrite !G. ring.
Qed.

Lemma block_translation m d x row a c k : solid d -> In row (connectivity d) -> (a < length row)%nat -> (c < 3)%nat -> (k < 3)%nat ->
  Rsum (map (fun b => entries (block m d x row a b) c k) (seq 0 (length row))) = 0.
Proof.
  intros S Hr Ha Hc Hk. destruct (solid_row d row S Hr) as [Hl Hi].
  rewrite (Rsum_ext _ _ (fun b => Rsum (map (fun g => entries (gauss_block m (gather x row) a b g) c k) (quad d row)))).
  2:{ intros b Hb. apply in_seq in Hb. apply block_spec; [exact Hl|exact Ha|lia]. }
  rewrite Rsum_swap. apply Rsum_zero. intros g Hg.
  pose proof (proj1 (Forall_forall _ _) (quad_sound d row) g Hg) as Sg. destruct (quad_in d row g Hg) as (q & Hq & ->).
  set (g := the_node d row q) in *.
  assert (Z : forall j, (j < 3)%nat -> Rsum (map (fun b => entries (dN_dx g) b j) (seq 0 (length row))) = 0).
  { intros j Hj. rewrite Hl. unfold g. rewrite (the_node_sum d row q) by (first [apply S | exact Hl | assumption]). reflexivity. }
  set (F := of_entries (grad (NumberOfNodes (kind d)) (entries (gather x row)) (entries (dN_dx g)))).
  rewrite (Rsum_ext _ _ (fun b => jacobian_determinant g * weight g *
    (geometric (PK2_stress m (det F) (cauchy_green F)) (entries (dN_dx g) a) (entries (dN_dx g) b) * delta c k +
     material_block m F (nth a (dN_dx g) []) (nth b (dN_dx g) []) c k))).
  2:{ intros b Hb. apply in_seq in Hb.
      destruct (gauss_block_spec m (gather x row) g (NumberOfNodes (kind d)) a b) as [_ E]; [unfold gather; rewrite map_length; exact Hl|exact Sg|lia|lia|].
      apply E; assumption. }
  set (T := PK2_stress m (det F) (cauchy_green F)). set (da := nth a (dN_dx g) []).
  set (h := fun l => geometric T (entries (dN_dx g) a) (fun k => delta k l) * delta c k + material_block m F da (map (fun k => delta k l) (seq 0 3)) c k).
  rewrite Rsum_scal_l.
  rewrite (Rsum_ext _ _ (fun b => h 0%nat * entries (dN_dx g) b 0 + h 1%nat * entries (dN_dx g) b 1 + h 2%nat * entries (dN_dx g) b 2)).
  2:{ intros b _. unfold h. rewrite (geometric_linear T _ (entries (dN_dx g) b)), (material_linear m F da (nth b (dN_dx g) []) c k).
      change (nth 0 (nth b (dN_dx g) []) 0) with (entries (dN_dx g) b 0). change (nth 1 (nth b (dN_dx g) []) 0) with (entries (dN_dx g) b 1).
      change (nth 2 (nth b (dN_dx g) []) 0) with (entries (dN_dx g) b 2). ring. }
  rewrite !Rsum_plus, !Rsum_scal_l, !Z by lia. ring.
Qed.

Definition translation (k : nat) (j : nat) : R := if Nat.eqb (j mod 3) k then 1 else 0.

Lemma unit_velocity_flat k N j : (j < N * 3)%nat -> nth j (concat (unit_velocity k N)) 0 = translation k j.
Proof.
  intros H. assert (Hj : (j = (j / 3) * 3 + j mod 3)%nat) by (pose proof (Nat.div_mod j 3); lia).
  pose proof (Nat.mod_upper_bound j 3 ltac:(lia)) as Hm. rewrite Hj at 1.
  rewrite concat_nth; [|apply unit_velocity_field|exact Hm]. apply unit_velocity_entries; [|exact Hm]. lia.
Qed.

Lemma translations_in_kernel m d x k i : solid d -> distinct_nodes d -> (k < 3)%nat -> let n := (length (positions d) * 3)%nat in
  Rsum (map (fun j => coeff (K (assemble_stiffness m d x) n) i j * translation k j) (seq 0 n)) = 0.
Proof.
  intros S ND Hk n. pose proof (Nat.mod_upper_bound i 3 ltac:(lia)) as Hm.
  assert (Hi : (i = (i / 3) * 3 + i mod 3)%nat) by (pose proof (Nat.div_mod i 3); lia).
  rewrite (Rsum_ext _ _ (fun j => coeff (K (assemble_stiffness m d x) n) (i / 3 * 3 + i mod 3) j * nth j (concat (unit_velocity k (length (positions d)))) 0)).
  2:{ intros j Hj. apply in_seq in Hj. rewrite unit_velocity_flat by (unfold n in Hj; lia). rewrite <- Hi. reflexivity. }
  unfold n. rewrite (K_row m d x _ _ (i / 3) (i mod 3) S ND eq_refl (unit_velocity_field k _) Hm).
  apply Rsum_zero. intros row Hr. apply Rsum_zero. intros a Ha. apply in_seq in Ha. destruct (Nat.eqb _ _); [|reflexivity].
  destruct (solid_row d row S Hr) as [Hl Hin].
  rewrite (Rsum_ext _ _ (fun b => entries (block m d x row a b) (i mod 3) k)).
  - apply block_translation; try assumption. lia.
  - intros b Hb. apply in_seq in Hb. unfold sum3.
    rewrite !unit_velocity_entries by (first [lia | apply (proj1 (Forall_forall _ _) Hin), nth_In; lia]).
    destruct k as [|[|[|]]]; try lia; cbn [Nat.eqb]; ring.
Qed.

Lemma zero_eigenvalue m d x : solid d -> distinct_nodes d -> positions d <> [] -> let n := (length (positions d) * 3)%nat in
  eigenvalue n (coeff (K (assemble_stiffness m d x) n)) 0.
Proof.
  intros S ND NE n. exists (translation 0). split.
  - exists 0%nat. split; [|unfold translation; cbn; lra]. unfold n. destruct (positions d); [contradiction|cbn; lia].
  - intros i _. rewrite Rmult_0_l. exact (translations_in_kernel m d x 0 i S ND ltac:(lia)).
Qed.

(** ** Smallest and largest *)

Lemma minCoeff_le l : forall v, (minCoeff v l <= v) /\ (forall y, In y l -> minCoeff v l <= y) /\ In (minCoeff v l) (v :: l).
Proof.
  unfold minCoeff. induction l as [|a l IH]; intros v; cbn [fold_left].
  - split; [lra|]. split; [contradiction|left; reflexivity].
  - destruct (IH (Rmin v a)) as (A1 & A2 & A3). pose proof (Rmin_l v a). pose proof (Rmin_r v a). split; [lra|]. split.
    + intros y [-> |Hy]; [lra|]. apply A2. exact Hy.
    + destruct A3 as [A3|A3]; [|right; right; exact A3]. rewrite <- A3. unfold Rmin. destruct (Rle_dec v a); [left|right; left]; reflexivity.
Qed.
Lemma maxCoeff_ge l : forall v, (v <= maxCoeff v l) /\ (forall y, In y l -> y <= maxCoeff v l) /\ In (maxCoeff v l) (v :: l).
Proof.
  unfold maxCoeff. induction l as [|a l IH]; intros v; cbn [fold_left].
  - split; [lra|]. split; [contradiction|left; reflexivity].
  - destruct (IH (Rmax v a)) as (A1 & A2 & A3). pose proof (Rmax_l v a). pose proof (Rmax_r v a). split; [lra|]. split.
    + intros y [-> |Hy]; [lra|]. apply A2. exact Hy.
    + destruct A3 as [A3|A3]; [|right; right; exact A3]. rewrite <- A3. unfold Rmax. destruct (Rle_dec v a); [right; left|left]; reflexivity.
Qed.

Lemma cond_with_zero l : In 0 l -> match cond l with Number r => r <= 0 | Undefined => True | _ => False end.
Proof.
  intros H. destruct l as [|v l]; [contradiction|]. cbn [cond].
  destruct (minCoeff_le l v) as (A1 & A2 & _), (maxCoeff_ge l v) as (B1 & B2 & _).
  assert (M : minCoeff v l <= 0) by (destruct H as [-> |H]; [exact A1|apply A2; exact H]).
  assert (X : 0 <= maxCoeff v l) by (destruct H as [-> |H]; [exact B1|apply B2; exact H]).
  destruct (Req_EM_T (maxCoeff v l) 0) as [|Ne]; [exact I|].
  assert (0 < / maxCoeff v l) by (apply Rinv_0_lt_compat; lra). unfold Rdiv. nra.
Qed.

Lemma cond_positive l : l <> [] -> Forall (fun y => 0 < y) l -> exists kappa r, condition_number l kappa /\ cond l = Number r /\ r = / kappa.
Proof.
  intros NE F. destruct l as [|v l]; [contradiction|]. clear NE.
  destruct (minCoeff_le l v) as (A1 & A2 & A3), (maxCoeff_ge l v) as (B1 & B2 & B3).
  pose proof (proj1 (Forall_forall _ _) F) as P. pose proof (P _ A3) as Pa. pose proof (P _ B3) as Pb.
  exists (maxCoeff v l / minCoeff v l), (minCoeff v l / maxCoeff v l). split; [|split].
  - exists (minCoeff v l), (maxCoeff v l). split; [exact A3|]. split; [exact B3|]. split.
    + intros y Hy. rewrite !Rabs_pos_eq by (try (specialize (P y Hy)); lra). destruct Hy as [<- |Hy]; [split; assumption|]. split; [apply A2|apply B2]; exact Hy.
    + split; [lra|]. rewrite !Rabs_pos_eq by lra. reflexivity.
  - cbn [cond]. destruct (Req_EM_T (maxCoeff v l) 0); [lra|reflexivity].
  - field. split; lra.
Qed.

(** ** Histories *)

Section Histories.
Variables (spectrum : nat -> (nat -> nat -> R) -> list R) (d : domain).

(** The eigenvalues kept are those of the matrix kept. *)
Definition coherent (s : forcefield) : Prop := eigenvalues_are_up_to_date s = true -> p_eigenvalues s = spectrum (k_rows s) (K_entries s).

Lemma coherent_serve s r : coherent s -> coherent (fst (serve spectrum d s r)).
Proof.
  intros H. unfold coherent in *. destruct r as [a| |x| |]; cbn [serve fst].
  - destruct a; cbn [step fst snd with_base base k_rows p_eigenvalues eigenvalues_are_up_to_date]; try exact H.
    + destruct (_ || _)%bool; [|discriminate]. intros E. rewrite (H E). reflexivity.
    + unfold if_needed. destruct (K_is_up_to_date (base s)); [exact H|discriminate].
    + unfold if_needed. destruct (K_is_up_to_date (base s)); [exact H|discriminate].
  - exact H.
  - discriminate.
  - unfold eigenvalues. destruct (negb (eigenvalues_are_up_to_date s)) eqn:E; cbn; [reflexivity|exact H].
  - unfold eigenvalues. destruct (negb (eigenvalues_are_up_to_date s)) eqn:E; cbn; [reflexivity|exact H].
Qed.
Lemma coherent_served rs : forall s, coherent s -> coherent (served spectrum d s rs).
Proof. induction rs as [|r rs IH]; intros s H; [exact H|]. apply IH, coherent_serve, H. Qed.
Lemma coherent_init x l E nu m : coherent (init d x l E nu m).
Proof. discriminate. Qed.

Lemma eigenvalues_coherent s : coherent s -> p_eigenvalues (eigenvalues spectrum s) = spectrum (k_rows s) (K_entries s).
Proof.
  intros H. unfold eigenvalues. destruct (eigenvalues_are_up_to_date s) eqn:E; cbn [negb]; [apply H; exact E|reflexivity].
Qed.

(** Two force fields that only differ in the eigenvalues they remember. *)
Definition same (s t : forcefield) : Prop := base s = base t /\ k_rows s = k_rows t /\ coherent s /\ coherent t.

Lemma same_K s t : same s t -> K_entries s = K_entries t.
Proof. intros (B & R & _). unfold K_entries. rewrite B, R. reflexivity. Qed.
Lemma same_reply s t r : same s t -> snd (serve spectrum d s r) = snd (serve spectrum d t r).
Proof.
  intros H. pose proof (same_K s t H) as EK. destruct H as (B & R & Cs & Ct). destruct r as [a| |x| |]; cbn [serve snd].
  - destruct a; try (rewrite B; reflexivity); unfold if_needed; rewrite B;
      (destruct (K_is_up_to_date (base t)); [rewrite B, R; reflexivity|unfold assemble_stiffness_now, assemble_stiffness_at; cbn [base k_rows]; rewrite B; reflexivity]).
  - rewrite R, EK. reflexivity.
  - reflexivity.
  - rewrite !eigenvalues_coherent by assumption. rewrite R, EK. reflexivity.
  - rewrite !eigenvalues_coherent by assumption. rewrite R, EK. reflexivity.
Qed.
Lemma eigenvalues_base s : base (eigenvalues spectrum s) = base s /\ k_rows (eigenvalues spectrum s) = k_rows s.
Proof. unfold eigenvalues. destruct (negb _); split; reflexivity. Qed.
Lemma same_step s t r : same s t -> same (fst (serve spectrum d s r)) (fst (serve spectrum d t r)).
Proof.
  intros H. destruct H as (B & R & Cs & Ct).
  assert (G : base (fst (serve spectrum d s r)) = base (fst (serve spectrum d t r)) /\ k_rows (fst (serve spectrum d s r)) = k_rows (fst (serve spectrum d t r))).
  { destruct r as [a| |x| |]; cbn [serve fst].
    - destruct a; cbn [step fst with_base base k_rows]; try (rewrite B; split; [reflexivity|exact R]);
        unfold if_needed; rewrite B; (destruct (K_is_up_to_date (base t)); [split; assumption|unfold assemble_stiffness_now, assemble_stiffness_at; cbn [base k_rows]; rewrite B; split; reflexivity]).
    - split; assumption.
    - unfold assemble_stiffness_at. cbn [base k_rows]. rewrite B. split; reflexivity.
    - destruct (eigenvalues_base s) as [-> ->], (eigenvalues_base t) as [-> ->]. split; assumption.
    - destruct (eigenvalues_base s) as [-> ->], (eigenvalues_base t) as [-> ->]. split; assumption. }
  destruct G as [G1 G2]. split; [exact G1|]. split; [exact G2|]. split; apply coherent_serve; assumption.
Qed.
Lemma same_served rs : forall s t, same s t -> same (served spectrum d s rs) (served spectrum d t rs).
Proof. induction rs as [|r rs IH]; intros s t H; [exact H|]. apply IH, same_step, H. Qed.

Lemma question_same s r : coherent s -> question r -> same (fst (serve spectrum d s r)) s.
Proof.
  intros C Q. assert (G : base (fst (serve spectrum d s r)) = base s /\ k_rows (fst (serve spectrum d s r)) = k_rows s).
  { destruct r; try contradiction; cbn [serve fst]; [split; reflexivity| |]; apply eigenvalues_base. }
  destruct G. split; [assumption|]. split; [assumption|]. split; [apply coherent_serve; exact C|exact C].
Qed.
Lemma questions_same qs : Forall question qs -> forall s, coherent s -> same (served spectrum d s qs) s.
Proof.
  induction 1 as [|q qs Hq F IH]; intros s C; [repeat split; assumption|].
  change (served spectrum d s (q :: qs)) with (served spectrum d (fst (serve spectrum d s q)) qs).
  destruct (IH _ (coherent_serve s q C)) as (B1 & R1 & C1 & C2). destruct (question_same s q C Hq) as (B2 & R2 & _ & _).
  split; [congruence|]. split; [congruence|]. split; assumption.
Qed.

Lemma served_app s a b : served spectrum d s (a ++ b) = served spectrum d (served spectrum d s a) b.
Proof. apply fold_left_app. Qed.

(** What the matrix kept is. *)
Definition holds (s : forcefield) (ts : list triplet) (n : nat) : Prop := p_K (base s) = ts /\ k_rows s = n.

Lemma quiet_kept rs : Forall quiet rs -> forall s ts n, K_is_up_to_date (base s) = true -> holds s ts n ->
  K_is_up_to_date (base (served spectrum d s rs)) = true /\ holds (served spectrum d s rs) ts n.
Proof.
  induction 1 as [|r rs Hr F IH]; intros s ts n U H; [split; assumption|].
  change (served spectrum d s (r :: rs)) with (served spectrum d (fst (serve spectrum d s r)) rs).
  assert (G : K_is_up_to_date (base (fst (serve spectrum d s r))) = true /\ holds (fst (serve spectrum d s r)) ts n).
  { unfold holds in *. destruct r as [a| |x| |]; cbn [serve fst]; try contradiction; try (destruct (eigenvalues_base s) as [-> ->]); try (split; assumption).
    destruct a; try contradiction; cbn [step fst with_base base k_rows p_K K_is_up_to_date]; unfold if_needed; rewrite ?U; (split; [first [exact U | reflexivity]|exact H]). }
  destruct G as [U1 H1]. apply IH; assumption.
Qed.
Lemma idle_kept rs : Forall idle rs -> forall s ts n, holds s ts n -> holds (served spectrum d s rs) ts n.
Proof.
  induction 1 as [|r rs Hr F IH]; intros s ts n H; [exact H|].
  change (served spectrum d s (r :: rs)) with (served spectrum d (fst (serve spectrum d s r)) rs). apply IH.
  unfold holds in *. destruct r as [a| |x| |]; cbn [serve fst]; try contradiction; try (destruct (eigenvalues_base s) as [-> ->]); try exact H.
  destruct a; try contradiction; cbn [step fst with_base base k_rows p_K set_K update_material]; exact H.
Qed.

(** The matrix kept is the one assembled somewhere. *)
Definition assembled_somewhere (s : forcefield) : Prop :=
  field (length (positions d)) 3 (current_x (base s)) /\
  exists m x, field (length (positions d)) 3 x /\ p_K (base s) = assemble_stiffness m d x /\ k_rows s = (length (positions d) * 3)%nat.

Lemma somewhere_at s x : assembled_somewhere s -> field (length (positions d)) 3 x -> assembled_somewhere (assemble_stiffness_at d s x).
Proof.
  intros [C _] Fx. split; [exact C|]. exists (before_update (material_law (base s)) (young_modulus (base s)) (poisson_ratio (base s))), x.
  split; [exact Fx|]. split; [reflexivity|]. cbn. rewrite (proj1 Fx). reflexivity.
Qed.
Lemma somewhere_serve s r : sized d r -> assembled_somewhere s -> assembled_somewhere (fst (serve spectrum d s r)).
Proof.
  intros Z H. destruct r as [a| |x| |]; cbn [serve fst].
  - destruct a; cbn [step fst with_base base k_rows].
    + exact H.
    + split; [exact Z|apply H].
    + exact H.
    + unfold if_needed. destruct (K_is_up_to_date (base s)); [exact H|apply somewhere_at; [exact H|apply H]].
    + unfold if_needed. destruct (K_is_up_to_date (base s)); [exact H|apply somewhere_at; [exact H|apply H]].
    + exact H.
  - exact H.
  - apply somewhere_at; [exact H|exact Z].
  - unfold assembled_somewhere. destruct (eigenvalues_base s) as [-> ->]. exact H.
  - unfold assembled_somewhere. destruct (eigenvalues_base s) as [-> ->]. exact H.
Qed.
Lemma somewhere_served rs : Forall (sized d) rs -> forall s, assembled_somewhere s -> assembled_somewhere (served spectrum d s rs).
Proof. induction 1 as [|r rs Hr F IH]; intros s H; [exact H|]. apply IH, somewhere_serve; assumption. Qed.
Lemma somewhere_init x l E nu m : field (length (positions d)) 3 x -> assembled_somewhere (init d x l E nu m).
Proof.
  intros Fx. split; [exact Fx|]. exists (before_update l E nu), x. split; [exact Fx|]. split; [reflexivity|]. cbn. rewrite (proj1 Fx). reflexivity.
Qed.
End Histories.
