From Coq Require Import ZArith Reals Lra Lia Permutation.
From Coquelicot Require Import Coquelicot.
From Coq Require Import List Arith Bool.
From Verif Require Import GridGeoModel ShapeModel ShapeSpec ShapeProofs ShapeFieldProofs LinAlg LinAlgProofs RectModel BarycentricModel MappingSpec MappingProofs TensorModel TensorSpec
  MaterialModel MaterialSpec MaterialProofs MaterialProperties SparseModel SparseProofs Sums TractionModel TractionProofs HyperModel HyperSpec HyperProofs HyperProofs2 HyperProofs3.
Import ListNotations.
Open Scope R_scope.

(** ** Sums over triplets *)

Definition tsum (ts : list triplet) (phi : nat -> nat -> R) : R := Rsum (map (fun t => value_of t * phi (row_of t) (col_of t)) ts).
(** What the loops over the half stored matrix do with a coefficient. *)
Definition mirror (phi : nat -> nat -> R) (i j : nat) : R := if Nat.eqb i j then phi i i else phi i j + phi j i.
Definition inside (n : nat) (t : triplet) : Prop := (row_of t < n)%nat /\ (col_of t < n)%nat.

Lemma tsum_app a b phi : tsum (a ++ b) phi = tsum a phi + tsum b phi.
Proof. unfold tsum. rewrite map_app. apply Rsum_app. Qed.
Lemma tsum_flat_map (A : Type) (f : A -> list triplet) l phi : tsum (flat_map f l) phi = Rsum (map (fun a => tsum (f a) phi) l).
Proof. unfold tsum. apply Rsum_flat_map. Qed.
Lemma tsum_permutation a b phi : Permutation a b -> tsum a phi = tsum b phi.
Proof. intros H. apply Rsum_permutation, Permutation_map, H. Qed.

Lemma coeff_tsum ts i j : coeff ts i j = tsum ts (fun a b => if (Nat.eqb a i && Nat.eqb b j)%bool then 1 else 0).
Proof.
  rewrite coeff_alt. apply Rsum_ext. intros t _. unfold at_position. destruct (_ && _)%bool; ring.
Qed.

Lemma stored_sum ts n phi : Forall (inside n) ts -> tsum (stored_coefficients ts n) phi = tsum ts phi.
Proof.
  intros H. unfold stored_coefficients. rewrite tsum_flat_map.
  rewrite (Rsum_ext _ _ (fun j => Rsum (map (fun i => coeff ts i j * phi i j) (seq 0 n)))).
  - clear -H. induction ts as [|t ts IH].
    + apply Rsum_zero. intros j _. apply Rsum_zero. intros i _. unfold coeff. simpl. ring.
    + inversion_clear H as [|? ? [Hr Hc] H']. specialize (IH H'). unfold tsum in *. cbn [map Rsum fold_right].
      change (fold_right Rplus 0) with Rsum. rewrite <- IH.
      rewrite (Rsum_ext _ _ (fun j => Rsum (map (fun i => (if Nat.eqb (row_of t) i then (if Nat.eqb (col_of t) j then value_of t * phi i j else 0) else 0)) (seq 0 n)) +
                                      Rsum (map (fun i => coeff ts i j * phi i j) (seq 0 n)))).
      * rewrite Rsum_plus. f_equal.
        rewrite (Rsum_ext _ _ (fun j => if Nat.eqb (col_of t) j then value_of t * phi (row_of t) j else 0)).
        -- apply (Rsum_delta (fun j => value_of t * phi (row_of t) j)). exact Hc.
        -- intros j _. apply (Rsum_delta (fun i => if Nat.eqb (col_of t) j then value_of t * phi i j else 0)). exact Hr.
      * intros j _. rewrite <- Rsum_plus. apply Rsum_ext. intros i _. rewrite !coeff_alt. cbn [map Rsum fold_right]. unfold at_position at 1.
        change (fold_right Rplus 0) with Rsum. rewrite (Nat.eqb_sym (row_of t) i), (Nat.eqb_sym (col_of t) j).
        rewrite (Nat.eqb_sym i), (Nat.eqb_sym j). destruct (Nat.eqb (row_of t) i), (Nat.eqb (col_of t) j); cbn [andb]; ring.
  - intros j _. unfold tsum, inner_vector. rewrite !map_map. cbn [row_of col_of value_of fst snd]. rewrite Rsum_filter. apply Rsum_ext. intros i _.
    destruct (stored ts i j) eqn:E; [reflexivity|]. rewrite (not_stored ts i j E). ring.
Qed.

Lemma add_scalar_spec f i v : (i < length f)%nat -> exists f', add_scalar f i v = Some f' /\ length f' = length f /\
  forall j, nth j f' 0 = nth j f 0 + if Nat.eqb i j then v else 0.
Proof.
  revert i. induction f as [|y f IH]; intros i Hi; [simpl in Hi; lia|]. destruct i as [|i]; cbn [add_scalar].
  - eexists. split; [reflexivity|]. split; [reflexivity|]. intros [|j]; simpl; ring.
  - destruct (IH i) as (f' & E & L & N); [simpl in Hi; lia|]. rewrite E. eexists. split; [reflexivity|]. split; [simpl; congruence|].
    intros [|j]; [simpl; ring|]. cbn [nth Nat.eqb]. apply N.
Qed.
Lemma add_scalars_spec l f : Forall (fun p => (fst p < length f)%nat) l -> exists f', add_scalars f l = Some f' /\ length f' = length f /\
  forall j, nth j f' 0 = nth j f 0 + Rsum (map (fun p => if Nat.eqb (fst p) j then snd p else 0) l).
Proof.
  unfold add_scalars. revert f. induction l as [|[i v] l IH]; intros f H; cbn [fold_left].
  - exists f. split; [reflexivity|]. split; [reflexivity|]. intros. simpl. ring.
  - inversion_clear H as [|? ? Hi H']. cbn [fst snd] in *. destruct (add_scalar_spec f i v Hi) as (f1 & E1 & L1 & N1). rewrite E1.
    destruct (IH f1) as (f' & E & L & N); [rewrite L1; exact H'|]. exists f'. split; [exact E|]. split; [congruence|].
    intros j. rewrite N, N1. cbn [map Rsum fold_right fst snd]. change (fold_right Rplus 0) with Rsum. ring.
Qed.

Lemma stored_inside ts n : Forall (inside n) (stored_coefficients ts n).
Proof.
  apply Forall_forall. intros t Ht. apply in_flat_map in Ht. destruct Ht as (j & Hj & Ht). apply in_seq in Hj.
  apply in_map_iff in Ht. destruct Ht as ([i v] & <- & Hi). unfold inner_vector in Hi. apply in_map_iff in Hi.
  destruct Hi as (i' & E & Hi). injection E as <- _. apply filter_In in Hi. destruct Hi as [Hi _]. apply in_seq in Hi.
  split; cbn [row_of col_of fst snd]; lia.
Qed.

Lemma addDForce_spec ts n k DX DF : Forall (inside n) ts -> length DF = n ->
  exists DF', addDForce ts n k DX DF = Some DF' /\ length DF' = n /\
    forall p, nth p DF' 0 = nth p DF 0 - k * tsum ts (mirror (fun a b => if Nat.eqb a p then nth b DX 0 else 0)).
Proof.
  intros H L. unfold addDForce. set (l := flat_map _ _).
  destruct (add_scalars_spec l DF) as (DF' & E & L' & N).
  - apply Forall_forall. intros q Hq. unfold l in Hq. apply in_flat_map in Hq. destruct Hq as (t & Ht & Hq).
    pose proof (proj1 (Forall_forall _ _) (stored_inside ts n) t Ht) as [Hr Hc].
    destruct (negb _); cbn [In] in Hq; destruct Hq as [<- | Hq]; cbn [fst]; try lia; destruct Hq as [<- | []]; cbn [fst]; lia.
  - exists DF'. split; [exact E|]. split; [congruence|]. intros p. rewrite N. unfold Rminus. f_equal.
    rewrite <- (stored_sum ts n _ H). unfold l. rewrite Rsum_flat_map. unfold tsum. rewrite <- Rsum_scal_l, <- Rsum_opp. apply Rsum_ext. intros t _.
    unfold mirror. destruct (Nat.eqb_spec (row_of t) (col_of t)) as [Heq|Hne]; cbn [negb map Rsum fold_right fst snd].
    + destruct (Nat.eqb (row_of t) p); ring.
    + destruct (Nat.eqb (row_of t) p), (Nat.eqb (col_of t) p); ring.
Qed.

Definition unit_at (i j : nat) : nat -> nat -> R := fun a b => if (Nat.eqb a i && Nat.eqb b j)%bool then 1 else 0.

Lemma addK_coeff ts n k off i j : Forall (inside n) ts ->
  coeff (addKToMatrix ts n k off) (off + i) (off + j) = - k * tsum ts (mirror (unit_at i j)).
Proof.
  intros H. rewrite coeff_tsum. unfold addKToMatrix. rewrite tsum_flat_map, <- (stored_sum ts n _ H). unfold tsum at 2. rewrite <- Rsum_scal_l.
  assert (S : forall a b, Nat.eqb (off + a) (off + b) = Nat.eqb a b).
  { intros a b. destruct (Nat.eqb_spec a b) as [-> |Hn]; [apply Nat.eqb_refl|]. apply Nat.eqb_neq. lia. }
  apply Rsum_ext. intros t _. unfold mirror, unit_at, tsum. destruct (Nat.eqb_spec (row_of t) (col_of t)) as [Heq|Hne]; cbn [negb map Rsum fold_right row_of col_of value_of fst snd].
  - rewrite !S. change (snd (fst t)) with (col_of t). change (fst (fst t)) with (row_of t). ring_simplify. destruct (_ && _)%bool; change (snd t) with (value_of t); ring.
  - rewrite !S. change (snd (fst t)) with (col_of t). change (fst (fst t)) with (row_of t). change (snd t) with (value_of t).
    destruct (_ && _)%bool; destruct (_ && _)%bool; ring.
Qed.
Lemma addK_outside ts n k off i j : (i < off \/ j < off \/ off + n <= i \/ off + n <= j)%nat -> stored (addKToMatrix ts n k off) i j = false.
Proof.
  intros H. destruct (stored _ i j) eqn:E; [exfalso|reflexivity]. apply existsb_exists in E. destruct E as (t & Ht & Hp).
  unfold at_position in Hp. apply andb_prop in Hp. destruct Hp as [H1 H2]. apply Nat.eqb_eq in H1, H2.
  unfold addKToMatrix in Ht. apply in_flat_map in Ht. destruct Ht as (s & Hs & Ht).
  pose proof (proj1 (Forall_forall _ _) (stored_inside ts n) s Hs) as [Hr Hc].
  destruct (negb _); cbn [In] in Ht; destruct Ht as [<- | Ht]; try destruct Ht as [<- | []]; try contradiction;
    unfold row_of, col_of in *; cbn [fst snd] in *; lia.
Qed.
Lemma K_coeff ts n i j : Forall (inside n) ts -> coeff (K ts n) i j = tsum ts (mirror (unit_at i j)).
Proof.
  intros H. rewrite coeff_tsum. unfold K. rewrite tsum_flat_map, <- (stored_sum ts n _ H). unfold tsum at 2.
  apply Rsum_ext. intros t _. unfold mirror, unit_at, tsum. destruct (Nat.eqb_spec (row_of t) (col_of t)) as [Heq|Hne]; cbn [negb map Rsum fold_right row_of col_of value_of fst snd];
  change (snd (fst t)) with (col_of t); change (fst (fst t)) with (row_of t); change (snd t) with (value_of t).
  - ring.
  - ring.
Qed.

(** ** Triplets of one element *)

Lemma Rsum_upper n i (h : nat -> R) : (i < n)%nat ->
  Rsum (map h (seq (i + 1) (n - (i + 1)))) = Rsum (map (fun j => if Nat.ltb i j then h j else 0) (seq 0 n)).
Proof.
  intros Hi. replace (seq 0 n) with (seq 0 (i + 1) ++ seq (i + 1) (n - (i + 1))).
  - rewrite map_app, Rsum_app. rewrite (Rsum_zero _ _ (seq 0 (i + 1))).
    + rewrite Rplus_0_l. apply Rsum_ext. intros j Hj. apply in_seq in Hj. destruct (Nat.ltb_spec i j); [reflexivity|lia].
    + intros j Hj. apply in_seq in Hj. destruct (Nat.ltb_spec i j); [lia|reflexivity].
  - transitivity (seq 0 ((i + 1) + (n - (i + 1)))); [symmetry; exact (seq_app (i + 1) (n - (i + 1)) 0)|f_equal; lia].
Qed.
Lemma triangle_sum n (g : nat -> nat -> R) :
  Rsum (map (fun i => g i i + Rsum (map (fun j => g i j + g j i) (seq (i + 1) (n - (i + 1))))) (seq 0 n)) =
  Rsum (map (fun i => Rsum (map (fun j => g i j) (seq 0 n))) (seq 0 n)).
Proof.
  transitivity (Rsum (map (fun i => Rsum (map (fun j => (if Nat.eqb i j then g i j else 0)) (seq 0 n)) +
     Rsum (map (fun j => (if Nat.ltb i j then g i j else 0)) (seq 0 n)) + Rsum (map (fun j => (if Nat.ltb i j then g j i else 0)) (seq 0 n))) (seq 0 n))).
  - apply Rsum_ext. intros i Hi. apply in_seq in Hi. rewrite Rsum_upper by lia.
    rewrite (Rsum_delta (fun j => g i j)) by lia. rewrite Rplus_assoc. f_equal. rewrite <- Rsum_plus. apply Rsum_ext. intros j _.
    destruct (Nat.ltb i j); ring.
  - rewrite !Rsum_plus. rewrite (Rsum_swap _ _ (fun i j => if Nat.ltb i j then g j i else 0)). rewrite <- !Rsum_plus.
    apply Rsum_ext. intros i _. rewrite <- !Rsum_plus. apply Rsum_ext. intros j _.
    destruct (Nat.eqb_spec i j), (Nat.ltb_spec i j), (Nat.ltb_spec j i); try lia; ring.
Qed.

Definition block (m : material) (d : domain) (x : list (list R)) (row : list nat) (a b : nat) : list (list R) :=
  element_block m (gather x row) (quad d row) a b.

Lemma zeros3 : matrix3 (repeat (repeat 0 3) 3).
Proof. split; [reflexivity|repeat constructor]. Qed.

Lemma block_spec m d x row a b : length row = NumberOfNodes (kind d) -> (a < length row)%nat -> (b < length row)%nat ->
  forall i j, entries (block m d x row a b) i j = Rsum (map (fun g => entries (gauss_block m (gather x row) a b g) i j) (quad d row)).
Proof.
  intros Hl Ha Hb. unfold block, element_block.
  assert (Lg : length (gather x row) = NumberOfNodes (kind d)) by (unfold gather; rewrite map_length; exact Hl).
  assert (G : forall gs A, Forall (sound (NumberOfNodes (kind d))) gs -> matrix3 A ->
     matrix3 (fold_left (fun K g => madd K (gauss_block m (gather x row) a b g)) gs A) /\
     forall i j, entries (fold_left (fun K g => madd K (gauss_block m (gather x row) a b g)) gs A) i j =
       entries A i j + Rsum (map (fun g => entries (gauss_block m (gather x row) a b g) i j) gs)).
  { induction gs as [|g gs IH]; intros A HS MA; cbn [fold_left].
    - split; [exact MA|]. intros. simpl. ring.
    - inversion_clear HS as [|? ? Sg HS']. destruct (gauss_block_spec m (gather x row) g _ a b Lg Sg) as [M1 _]; [lia|lia|].
      destruct (madd_spec A _ MA M1) as [M2 E2]. destruct (IH _ HS' M2) as [M3 E3]. split; [exact M3|].
      intros i j. rewrite E3, E2. cbn [map Rsum fold_right]. change (fold_right Rplus 0) with Rsum. ring. }
  intros i j. rewrite (proj2 (G (quad d row) _ (quad_sound d row) zeros3)), zeros_entries. ring.
Qed.
Lemma block_symmetric m d x row a b i j : length row = NumberOfNodes (kind d) -> (a < length row)%nat -> (b < length row)%nat -> (i < 3)%nat -> (j < 3)%nat ->
  entries (block m d x row a b) i j = entries (block m d x row b a) j i.
Proof.
  intros Hl Ha Hb Hi Hj. rewrite !block_spec by assumption. apply Rsum_ext. intros g Hg.
  apply (gauss_block_symmetric m (gather x row) g (NumberOfNodes (kind d))); try lia.
  - unfold gather. rewrite map_length. exact Hl.
  - exact (proj1 (Forall_forall _ _) (quad_sound d row) g Hg).
Qed.

Definition full_block (m : material) (d : domain) (x : list (list R)) (row : list nat) (phi : nat -> nat -> R) (a b : nat) : R :=
  sum3 (fun i => sum3 (fun j => entries (block m d x row a b) i j * phi (nth a row 0 * 3 + i)%nat (nth b row 0 * 3 + j)%nat)).

Lemma element_triplets_sum m d x row phi : length row = NumberOfNodes (kind d) -> NoDup row ->
  tsum (element_triplets m d x row) (mirror phi) =
  Rsum (map (fun a => Rsum (map (fun b => full_block m d x row phi a b) (seq 0 (length row)))) (seq 0 (length row))).
Proof.
  intros Hl ND. rewrite <- triangle_sum. unfold element_triplets. fold (quad d row). rewrite tsum_flat_map. apply Rsum_ext. intros a Ha. apply in_seq in Ha.
  rewrite tsum_app. f_equal.
  - assert (SY : forall i j, (i < 3)%nat -> (j < 3)%nat -> entries (block m d x row a a) i j = entries (block m d x row a a) j i)
      by (intros; apply block_symmetric; auto; lia).
    unfold tsum. fold (block m d x row a a). set (Kaa := block m d x row a a) in *. set (r := (nth a row 0 * 3)%nat).
    cbn [seq flat_map map app Nat.sub]. cbn [Rsum fold_right row_of col_of value_of fst snd]. unfold mirror.
    rewrite !Nat.eqb_refl. rewrite !(proj2 (Nat.eqb_neq _ _)) by lia.
    unfold full_block, sum3. fold Kaa r. rewrite (SY 1%nat 0%nat), (SY 2%nat 0%nat), (SY 2%nat 1%nat) by lia. unfold e, entries. ring.
  - rewrite tsum_flat_map. apply Rsum_ext. intros b Hb. apply in_seq in Hb.
    assert (NE : nth a row 0%nat <> nth b row 0%nat).
    { intros E. apply (proj1 (NoDup_nth row 0%nat) ND) in E; lia. }
    fold (block m d x row a b). unfold tsum. set (ra := (nth a row 0 * 3)%nat). set (rb := (nth b row 0 * 3)%nat).
    assert (NR : (ra + 3 <= rb \/ rb + 3 <= ra)%nat) by (unfold ra, rb; lia).
    cbn [seq flat_map map app]. cbn [Rsum fold_right row_of col_of value_of fst snd]. unfold mirror.
    rewrite !(proj2 (Nat.eqb_neq _ _)) by lia.
    unfold full_block, sum3. fold ra rb. rewrite !(block_symmetric m d x row b a) by lia. unfold e, entries. ring.
Qed.

Lemma element_triplets_inside m d x row N : length row = NumberOfNodes (kind d) -> Forall (fun i => (i < N)%nat) row ->
  Forall (inside (N * 3)) (element_triplets m d x row).
Proof.
  intros Hl Hr. assert (P : forall a, (a < length row)%nat -> (nth a row 0 < N)%nat) by (intros a Ha; apply (proj1 (Forall_forall _ _) Hr), nth_In, Ha).
  apply Forall_forall. intros t Ht. unfold element_triplets in Ht. apply in_flat_map in Ht. destruct Ht as (a & Ha & Ht). apply in_seq in Ha.
  pose proof (P a ltac:(lia)) as Pa. apply in_app_or in Ht. destruct Ht as [Ht|Ht].
  - apply in_flat_map in Ht. destruct Ht as (i & Hi & Ht). apply in_seq in Hi. apply in_map_iff in Ht. destruct Ht as (j & <- & Hj). apply in_seq in Hj.
    split; cbn [row_of col_of fst snd]; lia.
  - apply in_flat_map in Ht. destruct Ht as (b & Hb & Ht). apply in_seq in Hb. pose proof (P b ltac:(lia)) as Pb.
    apply in_flat_map in Ht. destruct Ht as (i & Hi & Ht). apply in_seq in Hi. apply in_map_iff in Ht. destruct Ht as (j & <- & Hj). apply in_seq in Hj.
    split; cbn [row_of col_of fst snd]; lia.
Qed.

Lemma assemble_alt m d x : assemble_stiffness m d x = flat_map (element_triplets m d x) (connectivity d).
Proof.
  unfold assemble_stiffness, assemble_in_order. generalize (connectivity d). intros l.
  assert (G : forall k pre, length pre = k -> flat_map (fun id => element_triplets m d x (nth id (pre ++ l) [])) (seq k (length l)) = flat_map (element_triplets m d x) l).
  { induction l as [|row l IH]; intros k pre Hk; [reflexivity|]. cbn [length seq flat_map]. f_equal.
    - rewrite app_nth2 by lia. rewrite Hk, Nat.sub_diag. reflexivity.
    - rewrite <- (IH (S k) (pre ++ [row])) by (rewrite app_length; simpl; lia). rewrite <- app_assoc. reflexivity. }
  exact (G 0%nat [] eq_refl).
Qed.

Lemma assemble_inside m d x N : well_formed d -> length (positions d) = N -> Forall (inside (N * 3)) (assemble_stiffness m d x).
Proof.
  intros WF LN. rewrite assemble_alt. apply Forall_forall. intros t Ht. apply in_flat_map in Ht. destruct Ht as (row & Hrow & Ht).
  destruct (proj1 (Forall_forall _ _) WF row Hrow) as [Hl Hr].
  rewrite LN in Hr. apply (proj1 (Forall_forall _ _) (element_triplets_inside m d x row N Hl Hr) t Ht).
Qed.

Lemma assemble_sum m d x phi : well_formed d -> distinct_nodes d ->
  tsum (assemble_stiffness m d x) (mirror phi) =
  Rsum (map (fun row => Rsum (map (fun a => Rsum (map (fun b => full_block m d x row phi a b) (seq 0 (length row)))) (seq 0 (length row)))) (connectivity d)).
Proof.
  intros WF ND. rewrite assemble_alt, tsum_flat_map. apply Rsum_ext. intros row Hrow. apply element_triplets_sum.
  - apply (proj1 (Forall_forall _ _) WF row Hrow).
  - apply (proj1 (Forall_forall _ _) ND row Hrow).
Qed.

(** Flat vectors *)
Lemma concat_nth (v : list (list R)) p c : Forall (fun r => length r = 3%nat) v -> (c < 3)%nat -> nth (p * 3 + c) (concat v) 0 = entries v p c.
Proof.
  intros F Hc. revert p. induction v as [|r v IH]; intros p.
  - unfold entries. cbn [concat]. rewrite !nth_overflow; [reflexivity|rewrite nth_overflow; simpl; lia|simpl; lia].
  - inversion_clear F as [|? ? Hr F']. cbn [concat]. destruct p as [|p].
    + rewrite app_nth1 by lia. reflexivity.
    + rewrite app_nth2 by lia. replace (S p * 3 + c - length r)%nat with (p * 3 + c)%nat by lia. apply IH. exact F'.
Qed.
Lemma concat_length3 (v : list (list R)) : Forall (fun r => length r = 3%nat) v -> length (concat v) = (length v * 3)%nat.
Proof. induction 1 as [|r v Hr F IH]; [reflexivity|]. cbn [concat length]. rewrite app_length, IH, Hr. reflexivity. Qed.

(** Row (p, c) of the assembled operator applied to v. *)
Lemma operator_row m d x v N p c : well_formed d -> distinct_nodes d -> field N 3 v -> (c < 3)%nat ->
  tsum (assemble_stiffness m d x) (mirror (fun a b => if Nat.eqb a (p * 3 + c) then nth b (concat v) 0 else 0)) =
  Rsum (map (fun row => Rsum (map (fun a => if Nat.eqb (nth a row 0%nat) p then
     Rsum (map (fun b => sum3 (fun k => entries (block m d x row a b) c k * entries v (nth b row 0%nat) k)) (seq 0 (length row))) else 0)
     (seq 0 (length row)))) (connectivity d)).
Proof.
  intros WF ND [Lv Fv] Hc. rewrite assemble_sum by assumption. apply Rsum_ext. intros row _. apply Rsum_ext. intros a _.
  rewrite (Rsum_ext _ _ (fun b => if Nat.eqb (nth a row 0%nat) p then sum3 (fun k => entries (block m d x row a b) c k * entries v (nth b row 0%nat) k) else 0)).
  - destruct (Nat.eqb (nth a row 0%nat) p); [reflexivity|]. apply Rsum_zero. reflexivity.
  - intros b _. unfold full_block. destruct (Nat.eqb_spec (nth a row 0%nat) p) as [E|E].
    + rewrite E. assert (T : forall i, (i < 3)%nat -> Nat.eqb (p * 3 + i) (p * 3 + c) = Nat.eqb i c).
      { intros i Hi. destruct (Nat.eqb_spec i c) as [-> |Hn]; [apply Nat.eqb_refl|]. apply Nat.eqb_neq. lia. }
      unfold sum3. rewrite !T by lia. rewrite !concat_nth by (first [exact Fv | lia]).
      destruct c as [|[|[|]]]; try lia; cbn [Nat.eqb]; ring.
    + unfold sum3. rewrite !(proj2 (Nat.eqb_neq _ _)) by lia. ring.
Qed.
