From Coq Require Import ZArith Reals Lra Lia.
From Coquelicot Require Import Coquelicot.
From Coq Require Import List Arith Bool.
From Verif Require Import GridGeoModel ShapeModel ShapeSpec ShapeProofs ShapeFieldProofs LinAlg LinAlgProofs RectModel BarycentricModel MappingSpec MappingProofs TensorModel TensorSpec
  MaterialModel MaterialSpec MaterialProofs MaterialProperties SparseModel SparseProofs Sums TractionModel TractionProofs HyperModel HyperSpec HyperProofs.
Import ListNotations.
Open Scope R_scope.

(** ** Forces on the mesh *)

Lemma map2_seq_gen (A B C : Type) (f : A -> B -> C) (da : A) (db : B) n l m :
  length l = n -> length m = n -> map2 f l m = map (fun i => f (nth i l da) (nth i m db)) (seq 0 n).
Proof.
  revert l m. induction n; intros [|a l] [|b m] Hl Hm; try discriminate; [reflexivity|].
  cbn [map2 seq map nth]. f_equal. rewrite <- seq_shift, map_map. apply IHn; simpl in *; congruence.
Qed.

Lemma gather_entries x row a c : (a < length row)%nat -> entries (gather x row) a c = entries x (nth a row 0%nat) c.
Proof.
  intros Ha. unfold entries, gather. rewrite (nth_indep _ [] (nth 0 x [])) by (rewrite map_length; exact Ha).
  rewrite (map_nth (fun i => nth i x [])). reflexivity.
Qed.

Definition quad (d : domain) (row : list nat) : list gauss_node := get_gauss_nodes d (nodes_of_element d row).

Lemma quad_sound d row : Forall (sound (NumberOfNodes (kind d))) (quad d row).
Proof. unfold quad. rewrite get_gauss_nodes_alt. apply Forall_forall. intros g Hg. apply in_map_iff in Hg. destruct Hg as (q & <- & _). apply the_node_sound. Qed.

Lemma addForce_spec m d x f N : well_formed d -> length (positions d) = N -> length x = N -> field N 3 f ->
  exists f', addForce m d x f = Some f' /\ field N 3 f' /\
    forall p c, (c < 3)%nat -> entries f' p c = entries f p c -
      Rsum (map (fun row => Rsum (map (fun a => if Nat.eqb (nth a row 0%nat) p then entries (element_forces m (gather x row) (quad d row)) a c else 0)
                                      (seq 0 (NumberOfNodes (kind d))))) (connectivity d)).
Proof.
  intros WF LN LX [LF FF]. unfold addForce. rewrite LX, LF, Nat.eqb_refl. cbn [negb].
  assert (E : if (Nat.eqb N 0 || Nat.eqb (length (connectivity d)) 0)%bool then connectivity d = [] else True).
  { destruct (Nat.eqb_spec N 0) as [H0|H0]; cbn [orb].
    - destruct (connectivity d) as [|row rows] eqn:EC; [reflexivity|exfalso]. unfold well_formed in WF. rewrite EC in WF.
      inversion WF as [|? ? [Hl Hr] _]; subst. pose proof (BarycentricProofs.nodes_positive (kind d)).
      destruct row as [|i row]; [simpl in Hl; lia|]. inversion Hr; subst. lia.
    - destruct (Nat.eqb_spec (length (connectivity d)) 0) as [H1|H1]; [|exact I]. apply length_zero_iff_nil. exact H1. }
  destruct (_ || _)%bool.
  - exists f. split; [reflexivity|]. split; [split; assumption|]. intros p c _. rewrite E. simpl. ring.
  - clear E. destruct (add_all_spec (force_contributions m d x) f 3) as (f' & E & F & N').
    + apply Forall_forall. intros q Hq. unfold force_contributions in Hq. apply in_flat_map in Hq. destruct Hq as (row & Hrow & Hq).
      destruct (proj1 (Forall_forall _ _) WF row Hrow) as [Hl Hr]. fold (quad d row) in Hq.
      destruct (element_forces_spec m (gather x row) (quad d row) (NumberOfNodes (kind d))) as (L1 & R1 & _);
        [unfold gather; rewrite map_length; exact Hl|apply quad_sound|].
      rewrite (map2_seq_gen _ _ _ _ 0%nat [] (NumberOfNodes (kind d))) in Hq by assumption.
      apply in_map_iff in Hq. destruct Hq as (a & <- & Ha). apply in_seq in Ha. cbn [fst snd]. split.
      * rewrite LF, <- LN. apply (proj1 (Forall_forall _ _) Hr). apply nth_In. lia.
      * rewrite map_length. apply rows3_nth; [exact R1|lia].
    + exact FF.
    + exists f'. split; [exact E|]. split; [rewrite LF in F; exact F|]. intros p c Hc. unfold entries at 1 2. rewrite N'.
      unfold Rminus. f_equal. unfold force_contributions. rewrite Rsum_flat_map, <- Rsum_opp. apply Rsum_ext. intros row Hrow.
      destruct (proj1 (Forall_forall _ _) WF row Hrow) as [Hl Hr]. fold (quad d row).
      destruct (element_forces_spec m (gather x row) (quad d row) (NumberOfNodes (kind d))) as (L1 & R1 & _);
        [unfold gather; rewrite map_length; exact Hl|apply quad_sound|].
      rewrite (map2_seq_gen _ _ _ _ 0%nat [] (NumberOfNodes (kind d))) by assumption.
      rewrite map_map, <- Rsum_opp. apply Rsum_ext. intros a _. cbn [fst snd].
      destruct (Nat.eqb (nth a row 0%nat) p); [|ring]. unfold entries. apply (nth_map0 Ropp). ring.
Qed.

(** Sum of the components of the forces against weights given per node and component. *)
Definition weighted (N : nat) (f : list (list R)) (phi : nat -> nat -> R) : R :=
  Rsum (map (fun p => sum3 (fun c => entries f p c * phi p c)) (seq 0 N)).

Lemma weighted_forces m d x f f' N phi : well_formed d -> length (positions d) = N -> length x = N -> field N 3 f ->
  addForce m d x f = Some f' ->
  weighted N f' phi = weighted N f phi -
    Rsum (map (fun row => Rsum (map (fun a => sum3 (fun c => entries (element_forces m (gather x row) (quad d row)) a c * phi (nth a row 0%nat) c))
                                    (seq 0 (NumberOfNodes (kind d))))) (connectivity d)).
Proof.
  intros WF LN LX FF H. destruct (addForce_spec m d x f N WF LN LX FF) as (f'' & E & _ & V). rewrite H in E. injection E as <-.
  unfold weighted. set (ef := fun row a c => entries (element_forces m (gather x row) (quad d row)) a c). set (n := NumberOfNodes (kind d)).
  rewrite (Rsum_ext _ _ (fun p => sum3 (fun c => entries f p c * phi p c) -
     Rsum (map (fun row => Rsum (map (fun a => if Nat.eqb (nth a row 0%nat) p then sum3 (fun c => ef row a c * phi p c) else 0) (seq 0 n))) (connectivity d)))).
  - rewrite Rsum_minus. f_equal. rewrite Rsum_swap. apply Rsum_ext. intros row Hrow. rewrite Rsum_swap. apply Rsum_ext. intros a Ha.
    apply in_seq in Ha. destruct (proj1 (Forall_forall _ _) WF row Hrow) as [Hl Hr].
    rewrite (Rsum_delta (fun p => sum3 (fun c => ef row a c * phi p c))); [reflexivity|].
    rewrite <- LN. apply (proj1 (Forall_forall _ _) Hr). apply nth_In. fold n in Hl. lia.
  - intros p Hp.
    set (T := fun c => Rsum (map (fun row => Rsum (map (fun a => if Nat.eqb (nth a row 0%nat) p then ef row a c else 0) (seq 0 n))) (connectivity d))).
    rewrite (sum3_ext _ (fun c => entries f p c * phi p c - T c * phi p c)).
    + assert (X : Rsum (map (fun row => Rsum (map (fun a => if Nat.eqb (nth a row 0%nat) p then sum3 (fun c => ef row a c * phi p c) else 0) (seq 0 n))) (connectivity d))
        = sum3 (fun c => T c * phi p c)).
      { unfold T, sum3. rewrite <- !Rsum_scal_r, <- !Rsum_plus. apply Rsum_ext. intros row _.
        rewrite <- !Rsum_scal_r, <- !Rsum_plus. apply Rsum_ext. intros a _. destruct (Nat.eqb _ p); ring. }
      rewrite X. unfold sum3. ring.
    + intros c Hc. rewrite V by exact Hc. unfold T, ef, n. ring.
Qed.

Lemma power_weighted N f v : field N 3 f -> field N 3 v -> power f v = weighted N f (entries v).
Proof.
  intros Hf Hv. rewrite (power_alt N 3 f v Hf Hv). unfold weighted. apply Rsum_ext. intros p _. cbn [seq map Rsum fold_right]. unfold sum3, entries. ring.
Qed.

(** The deformation gradient at a Gauss node. *)
Definition gradient (x : list (list R)) (row : list nat) (g : gauss_node) : list (list R) :=
  of_entries (grad (length row) (entries (gather x row)) (entries (dN_dx g))).

Lemma gradient_entries x row g i j : (i < 3)%nat -> (j < 3)%nat ->
  entries (gradient x row g) i j = grad (length row) (entries (gather x row)) (entries (dN_dx g)) i j.
Proof. intros. apply entries_of_entries; assumption. Qed.

(** Virtual work of the forces of an element. *)
Lemma element_work m d x row v : length row = NumberOfNodes (kind d) ->
  Rsum (map (fun a => sum3 (fun c => entries (element_forces m (gather x row) (quad d row)) a c * entries v (nth a row 0%nat) c)) (seq 0 (length row))) =
  Rsum (map (fun g => jacobian_determinant g * weight g * double_dot (stress_power m (gradient x row g)) (gradient v row g)) (quad d row)).
Proof.
  intros Hl. assert (Lg : length (gather x row) = NumberOfNodes (kind d)) by (unfold gather; rewrite map_length; exact Hl).
  destruct (element_forces_spec m (gather x row) (quad d row) (NumberOfNodes (kind d)) Lg (quad_sound d row)) as (_ & _ & E).
  rewrite (Rsum_ext _ _ (fun a => Rsum (map (fun g => sum3 (fun c => entries (gauss_forces m (gather x row) g) a c * entries v (nth a row 0%nat) c)) (quad d row)))).
  - rewrite Rsum_swap. apply Rsum_ext. intros g Hg.
    pose proof (proj1 (Forall_forall _ _) (quad_sound d row) g Hg) as Sg.
    destruct (gauss_forces_spec m (gather x row) g _ Lg Sg) as (_ & _ & V).
    rewrite (Rsum_ext _ _ (fun a => jacobian_determinant g * weight g * sum3 (fun c => sum3 (fun k =>
        entries (stress_power m (gradient x row g)) c k * (entries (gather v row) a c * entries (dN_dx g) a k))))).
    + rewrite Rsum_scal_l. f_equal. unfold double_dot, sum3. rewrite !(gradient_entries v) by lia. unfold grad.
      rewrite !Rsum_plus, !Rsum_scal_l. reflexivity.
    + intros a Ha. apply in_seq in Ha. rewrite (sum3_ext _ (fun c => jacobian_determinant g * weight g *
        sum3 (fun k => entries (stress_power m (gradient x row g)) c k * entries (dN_dx g) a k) * entries (gather v row) a c)).
      * unfold sum3. ring.
      * intros c Hc. rewrite V by lia. rewrite gather_entries by lia. unfold gradient. rewrite Hl. reflexivity.
  - intros a _. unfold sum3. rewrite !E. rewrite <- !Rsum_scal_r, <- !Rsum_plus. reflexivity.
Qed.

(** ** Energy *)

Lemma outer_spec u w : length u = 3%nat -> length w = 3%nat -> matrix3 (outer u w) /\ forall i j, entries (outer u w) i j = nth i u 0 * nth j w 0.
Proof.
  intros Hu Hw. destruct u as [|? [|? [|? [|]]]]; try discriminate. destruct w as [|? [|? [|? [|]]]]; try discriminate. split.
  - split; [reflexivity|repeat constructor].
  - intros [|[|[|[|i]]]] [|[|[|[|j]]]]; unfold entries, outer; simpl; ring.
Qed.

Lemma madd_spec A B' : matrix3 A -> matrix3 B' -> matrix3 (madd A B') /\ forall i j, entries (madd A B') i j = entries A i j + entries B' i j.
Proof.
  intros [L1 R1] [L2 R2]. destruct (map2_vadd_spec A B' 3 L1 L2 R1 R2) as (L & R' & E). split; [split; assumption|exact E].
Qed.

Lemma fold_madd l A : matrix3 A -> Forall matrix3 l ->
  matrix3 (fold_left madd l A) /\ forall i j, entries (fold_left madd l A) i j = entries A i j + Rsum (map (fun M => entries M i j) l).
Proof.
  revert A. induction l as [|M l IH]; intros A MA Ml; cbn [fold_left].
  - split; [exact MA|]. intros. simpl. ring.
  - inversion_clear Ml as [|? ? MM Ml']. destruct (madd_spec A M MA MM) as [M1 E1]. destruct (IH _ M1 Ml') as [M2 E2].
    split; [exact M2|]. intros i j. rewrite E2, E1. cbn [map Rsum fold_right]. change (fold_right Rplus 0) with Rsum. ring.
Qed.

Lemma strain_F_entries dN U n : length U = n -> length dN = n -> rows3 U -> rows3 dN -> (0 < n)%nat ->
  strain_F dN U = of_entries (fun i j => grad n (entries U) (entries dN) i j + delta i j).
Proof.
  intros LU LD RU RD Hn. unfold strain_F.
  rewrite (map2_seq_gen _ _ _ outer [] [] n) by assumption.
  set (l := map (fun i => outer (nth i U []) (nth i dN [])) (seq 0 n)).
  assert (Ml : Forall matrix3 l).
  { apply Forall_forall. intros M HM. apply in_map_iff in HM. destruct HM as (i & <- & Hi). apply in_seq in Hi.
    apply outer_spec; apply rows3_nth; auto; lia. }
  assert (El : forall i j, Rsum (map (fun M => entries M i j) l) = grad n (entries U) (entries dN) i j).
  { intros i j. unfold l, grad. rewrite map_map. apply Rsum_ext. intros a Ha. apply in_seq in Ha.
    apply outer_spec; apply rows3_nth; auto; lia. }
  destruct l as [|M l'] eqn:El'; [destruct n; [lia|discriminate]|]. cbn [hd tl].
  inversion_clear Ml as [|? ? MM Ml']. destruct (fold_madd l' M MM Ml') as [MF EF].
  assert (MI : matrix3 Id3) by apply (of_entries_matrix3 delta).
  destruct (madd_spec _ Id3 MF MI) as [MR ER]. rewrite (matrix3_entries _ MR). apply of_entries_ext. intros i j Hi Hj.
  rewrite ER, EF, <- El. cbn [map Rsum fold_right]. f_equal. change Id3 with (of_entries delta). apply entries_of_entries; assumption.
Qed.

Lemma nth_vminus a b k : length a = length b -> nth k (vminus a b) 0 = nth k a 0 - nth k b 0.
Proof.
  revert b k. unfold vminus. induction a as [|x a IH]; intros [|y b] [|k] H; try discriminate; simpl; try ring. apply IH. simpl in H. congruence.
Qed.
Lemma field_row N x i : field N 3 x -> (i < N)%nat -> length (nth i x []) = 3%nat.
Proof. intros [L F] Hi. apply (proj1 (Forall_forall _ _) F). apply nth_In. lia. Qed.

Lemma element_energy_spec m d x row N : CanonicalDimension (kind d) = 3%nat ->
  field N 3 (positions d) -> field N 3 x -> length row = NumberOfNodes (kind d) -> Forall (fun i => (i < N)%nat) row ->
  Forall (fun g => local_volume d row (fst g) <> 0) (gauss_nodes (kind d)) ->
  element_energy m d x row =
  Rsum (map (fun g => jacobian_determinant g * weight g *
                      strain_energy_density m (det (gradient x row g)) (cauchy_green (gradient x row g))) (quad d row)).
Proof.
  intros HC F0 FX Hl Hr HV. unfold element_energy. fold (quad d row). apply Rsum_ext. intros g Hg. unfold gauss_energy.
  set (U := map _ row).
  assert (LU : length U = length row) by apply map_length.
  assert (P : forall a, (a < length row)%nat -> (nth a row 0 < N)%nat) by (intros a Ha; apply (proj1 (Forall_forall _ _) Hr), nth_In, Ha).
  assert (EU : forall a, (a < length row)%nat -> nth a U [] = vminus (nth (nth a row 0%nat) x []) (nth (nth a row 0%nat) (positions d) [])).
  { intros a Ha. unfold U. rewrite (nth_indep _ [] (vminus (nth 0 x []) (nth 0 (positions d) []))) by (rewrite map_length; exact Ha).
    apply (map_nth (fun i => vminus (nth i x []) (nth i (positions d) []))). }
  assert (RU : rows3 U).
  { apply Forall_forall. intros r Hr'. apply (In_nth _ _ []) in Hr'. destruct Hr' as (a & Ha & <-). rewrite LU in Ha. rewrite EU by exact Ha.
    pose proof (field_row N x _ FX (P a Ha)) as E1. pose proof (field_row N _ _ F0 (P a Ha)) as E2.
    rewrite vminus_length by (etransitivity; [exact E1|symmetry; exact E2]). exact E1. }
  unfold quad in Hg. rewrite get_gauss_nodes_alt in Hg. apply in_map_iff in Hg. destruct Hg as (q & <- & Hq).
  destruct (the_node_sound d row q) as [LD RD].
  assert (E : strain_F (dN_dx (the_node d row q)) U = gradient x row (the_node d row q)).
  { rewrite (strain_F_entries _ U (length row));
      [|exact LU|rewrite Hl; exact LD|exact RU|exact RD|rewrite Hl; apply BarycentricProofs.nodes_positive].
    unfold gradient. apply of_entries_ext. intros i j Hi Hj.
    rewrite <- (rest_gradient d row q HC Hl) by first [assumption | apply (proj1 (Forall_forall _ _) HV q Hq)].
    rewrite Hl. unfold grad. rewrite <- Rsum_plus. apply Rsum_ext. intros a Ha. apply in_seq in Ha.
    rewrite !gather_entries by lia. unfold entries at 1. rewrite EU by lia.
    assert (Ha' : (a < length row)%nat) by lia.
    rewrite nth_vminus by (rewrite (field_row N _ _ F0 (P a Ha')); apply (field_row N _ _ FX (P a Ha'))).
    unfold entries. ring. }
  rewrite E, right_cauchy_green_entries; [reflexivity|apply of_entries_matrix3].
Qed.

(** ** Moving the nodes along x + t v *)

Lemma displaced_field N x v t : field N 3 x -> field N 3 v -> field N 3 (displaced x v t).
Proof.
  intros [Lx Fx] [Lv Fv]. split; [unfold displaced; rewrite map2_length; congruence|].
  subst N. revert v Lv Fv. induction x as [|p x IH]; intros [|u v] Lv Fv; try discriminate; [constructor|].
  inversion_clear Fx as [|? ? Hp Fx']. inversion_clear Fv as [|? ? Hu Fv']. cbn [displaced map2]. constructor.
  - rewrite vadd_length; [exact Hp|]. unfold vscale. rewrite map_length. congruence.
  - apply IH; auto.
Qed.
Lemma displaced_entries N x v t p c : field N 3 x -> field N 3 v -> entries (displaced x v t) p c = entries x p c + t * entries v p c.
Proof.
  intros [Lx Fx] [Lv Fv]. subst N. revert v p Lv Fv. induction x as [|a x IH]; intros [|u v] p Lv Fv; try discriminate.
  - unfold entries. destruct p, c; simpl; ring.
  - inversion_clear Fx as [|? ? Hp Fx']. inversion_clear Fv as [|? ? Hu Fv']. destruct p as [|p].
    + unfold entries. cbn [displaced map2 nth]. destruct a as [|? [|? [|? [|]]]]; try discriminate. destruct u as [|? [|? [|? [|]]]]; try discriminate.
      destruct c as [|[|[|[|]]]]; simpl; ring.
    + change (entries (displaced x v t) p c = entries x p c + t * entries v p c). apply IH; auto.
Qed.

Lemma gradient_matrix x row g : matrix3 (gradient x row g).
Proof. apply of_entries_matrix3. Qed.

Section Path.
Variables (N : nat) (x v : list (list R)) (row : list nat) (g : gauss_node).
Hypothesis Fx : field N 3 x.
Hypothesis Fv : field N 3 v.

Lemma gradient_displaced t i j : (i < 3)%nat -> (j < 3)%nat ->
  entries (gradient (displaced x v t) row g) i j = entries (gradient x row g) i j + t * entries (gradient v row g) i j.
Proof.
  intros Hi Hj. unfold gradient. rewrite !entries_of_entries by assumption. unfold grad.
  rewrite <- Rsum_scal_l, <- Rsum_plus. apply Rsum_ext. intros a Ha. apply in_seq in Ha.
  rewrite !gather_entries by lia. rewrite (displaced_entries N) by assumption. ring.
Qed.
Lemma gradient_displaced_0 : gradient (displaced x v 0) row g = gradient x row g.
Proof.
  rewrite (matrix3_entries _ (gradient_matrix (displaced x v 0) row g)), (matrix3_entries _ (gradient_matrix x row g)).
  apply of_entries_ext. intros. rewrite gradient_displaced by assumption. ring.
Qed.
Lemma gradient_derive : matrix_derive (fun t => gradient (displaced x v t) row g) (gradient v row g).
Proof.
  intros i j Hi Hj. apply (is_derive_ext (fun t => entries (gradient x row g) i j + t * entries (gradient v row g) i j)).
  - intros t. symmetry. apply gradient_displaced; assumption.
  - auto_derive; [exact I|ring].
Qed.
End Path.

(** det F > 0 at every Gauss node of an element that is not inverted. *)
Lemma gradient_positive d x row q : CanonicalDimension (kind d) = 3%nat -> length row = NumberOfNodes (kind d) ->
  0 < local_volume (moved d x) row (fst q) * local_volume d row (fst q) -> 0 < det (gradient x row (the_node d row q)).
Proof.
  intros HC Hl H.
  assert (NZ : det (rest_J d row q) <> 0).
  { intros E. unfold local_volume at 2 in H. change (det (jacobian 3 (kind d) (nodes_of_element d row) (fst q))) with (det (rest_J d row q)) in H.
    rewrite E, Rmult_0_r in H. lra. }
  pose proof (gradient_det d row q HC Hl NZ x) as G.
  change (local_volume (moved d x) row (fst q)) with (det (jacobian 3 (kind d) (gather x row) (fst q))) in H.
  change (local_volume d row (fst q)) with (det (rest_J d row q)) in H.
  rewrite <- G in H. unfold gradient. rewrite Hl. set (D := det (of_entries _)) in *.
  assert (S : 0 < det (rest_J d row q) * det (rest_J d row q)) by (destruct (Rdichotomy _ _ NZ); nra).
  destruct (Rle_lt_dec D 0) as [L|L]; [exfalso; nra|exact L].
Qed.
