(** Proofs for C103: meshes. *)

From Coq Require Import ZArith Reals Lra Lia.
From Coquelicot Require Import Coquelicot.
From Coq Require Import List Arith Bool Permutation.
From Verif Require Import GridGeoModel ShapeModel ShapeSpec ShapeProofs ShapeFieldProofs ShapeGaussProofs LinAlg LinAlgProofs RectModel RectProofs BarycentricModel MappingSpec MappingProofs TensorModel TensorSpec
  MaterialModel MaterialSpec MaterialProofs MaterialProperties SparseModel SparseProofs Sums TractionModel TractionProofs HyperModel HyperSpec HyperProofs HyperProofs2 HyperProofs3 HyperProofs4 HyperProperties.
From Verif Require Import ObjectivityProofs ObjectivityProofs2 NumberingSpec NumberingProofs NumberingProofs2.
From Verif Require ShapeFpSumProofs CorotProofs3.
Import ListNotations.
Open Scope R_scope.

(** ** The same elements in another order *)

Section Same.
Context (m : material) (d d' : domain).
Hypothesis Sd : solid d.
Hypothesis SE : same_elements d d'.
Let N := length (positions d).
Lemma same_rows (f : list nat -> R) : (forall row row', In row (connectivity d) -> relisted (kind d) row row' -> f row' = f row) -> Rsum (map f (connectivity d')) = Rsum (map f (connectivity d)).
Proof.
  intros H. destruct SE as (_ & _ & _ & rows & F & P). rewrite <- (ShapeFpSumProofs.Rsum_permutation (map f rows) (map f (connectivity d'))) by (apply Permutation_map, P).
  clear P. revert H F. generalize (connectivity d) as l. intros l H F. induction F as [|row row' l rows R F IH]; [reflexivity|]. cbn [map]. unfold Rsum in *. cbn [fold_right].
  rewrite (H row row') by (first [left; reflexivity | exact R]). f_equal. apply IH. intros r r' Hr. apply H. right. exact Hr.
Qed.
Lemma same_row row' : In row' (connectivity d') -> exists row, In row (connectivity d) /\ relisted (kind d) row row'.
Proof.
  intros H. destruct SE as (_ & _ & _ & rows & F & P). apply (Permutation_in _ (Permutation_sym P)) in H. clear P. induction F as [|r r' l rows R F IH]; [destruct H|].
  destruct H as [->|H]; [exists r; split; [left; reflexivity|exact R]|]. destruct (IH H) as (q & Hq & Rq). exists q. split; [right; exact Hq|exact Rq].
Qed.
Lemma row_usable row : In row (connectivity d) -> usable d row. Proof. apply solid_row. exact Sd. Qed.
Lemma same_solid : solid d'.
Proof.
  pose proof SE as (_ & EK & EP & _). destruct Sd as (W & Dm & F). split; [|split; rewrite ?EK, ?EP; assumption]. unfold well_formed. rewrite EK, EP.
  apply Forall_forall. intros row' H. destruct (same_row row' H) as (row & Hr & R). apply (relisted_usable d Dm row row'); [apply row_usable; exact Hr|exact R].
Qed.
Lemma same_quad row : quad d' row = quad d row.
Proof. destruct SE as (_ & EK & EP & _). destruct d as [di k P c], d' as [di' k' P' c']. cbn [kind positions] in *. subst k' P'. reflexivity. Qed.
Lemma same_forces x f : field N 3 x -> field N 3 f -> addForce m d' x f = addForce m d x f.
Proof.
  intros Fx Ff. pose proof SE as (_ & EK & EP & _).
  destruct (addForce_spec m d x f N (proj1 Sd) eq_refl (proj1 Fx) Ff) as (f1 & -> & F1 & E1).
  destruct (addForce_spec m d' x f N (proj1 same_solid) ltac:(rewrite EP; reflexivity) (proj1 Fx) Ff) as (f2 & -> & F2 & E2).
  f_equal. apply (CorotProofs3.fields_equal N); [exact F2|exact F1|]. intros p c Hc. rewrite (E2 p c Hc), (E1 p c Hc). f_equal.
  transitivity (Rsum (map (node_force m d x p c) (connectivity d'))); [|apply same_rows].
  - apply Rsum_ext. intros row _. unfold node_force. rewrite EK, same_quad. reflexivity.
  - intros row row' Hr R. apply relisted_force; [apply Sd|apply row_usable; exact Hr|exact R].
Qed.
Lemma same_regular : regular d -> regular d'.
Proof.
  intros RG. pose proof SE as (_ & EK & EP & _). apply Forall_forall. intros row' H. destruct (same_row row' H) as (row & Hr & R). rewrite EK.
  pose proof (relisted_regular d (proj1 (proj2 Sd)) row row' (row_usable row Hr) R (proj1 (Forall_forall _ _) RG row Hr)) as G.
  destruct d as [di k P c], d' as [di' k' P' c']. cbn [kind positions] in *. subst k' P'. exact G.
Qed.
Lemma same_energy x : regular d -> field N 3 x -> getPotentialEnergy m d' x = getPotentialEnergy m d x.
Proof.
  intros RG Fx. pose proof SE as (_ & EK & EP & _). unfold getPotentialEnergy. rewrite EP. destruct (negb _); [reflexivity|].
  rewrite <- (same_rows (element_energy m d x)).
  - apply Rsum_ext. intros row _. destruct d as [di k P c], d' as [di' k' P' c']. cbn [kind positions] in *. subst k' P'. reflexivity.
  - intros row row' Hr R. apply (relisted_energy m d); [apply Sd|apply row_usable; exact Hr|exact R|apply Sd|exact Fx|exact (proj1 (Forall_forall _ _) RG row Hr)].
Qed.
Lemma same_distinct : distinct_nodes d -> distinct_nodes d'.
Proof.
  intros ND. apply Forall_forall. intros row' H. destruct (same_row row' H) as (row & Hr & R). apply (relisted_distinct d (proj1 (proj2 Sd)) row row' (row_usable row Hr) R). exact (proj1 (Forall_forall _ _) ND row Hr).
Qed.
Lemma same_increments x k v df : distinct_nodes d -> field N 3 v -> field N 3 df ->
  addDForce (assemble_stiffness m d' x) (N * 3) k (concat v) (concat df) = addDForce (assemble_stiffness m d x) (N * 3) k (concat v) (concat df).
Proof.
  intros ND Fv Fd. pose proof SE as (_ & EK & EP & _). assert (Lc : length (concat df) = (N * 3)%nat) by (rewrite concat_length3 by apply Fd; rewrite (proj1 Fd); lia).
  destruct (HyperProofs4.addDForce_spec _ (N * 3) k (concat v) (concat df) (assemble_inside m d x N (proj1 Sd) eq_refl) Lc) as (D1 & -> & L1 & P1).
  destruct (HyperProofs4.addDForce_spec _ (N * 3) k (concat v) (concat df) (assemble_inside m d' x N (proj1 same_solid) ltac:(rewrite EP; reflexivity)) Lc) as (D2 & -> & L2 & P2).
  f_equal. apply (nth_ext _ _ 0 0); [congruence|]. intros i Hi. rewrite P1, P2. f_equal. f_equal.
  pose proof (Nat.div_mod i 3 ltac:(lia)) as DM. rewrite (Nat.mul_comm 3) in DM. rewrite DM. pose proof (Nat.mod_upper_bound i 3 ltac:(lia)) as UB.
  set (p := (i / 3)%nat) in *. set (c := (i mod 3)%nat) in *. rewrite (operator_row m d x v N p c (proj1 Sd) ND Fv UB), (operator_row m d' x v N p c (proj1 same_solid) (same_distinct ND) Fv UB).
  change (Rsum (map (node_stiffness m d' x v p c) (connectivity d')) = Rsum (map (node_stiffness m d x v p c) (connectivity d))). rewrite <- (same_rows (node_stiffness m d x v p c)).
  - apply Rsum_ext. intros row _. unfold node_stiffness, block. rewrite same_quad. reflexivity.
  - intros row row' Hr R. apply relisted_stiffness; [apply Sd|apply row_usable; exact Hr|exact R].
Qed.
End Same.

(** ** Other numbers for the nodes *)

Lemma renumbered_entries N t x p c : (p < N)%nat -> entries (renumbered N t x) p c = entries x (t p) c.
Proof.
  intros Hp. unfold entries, renumbered. rewrite (nth_indep _ [] (nth (t 0%nat) x [])) by (rewrite map_length, seq_length; exact Hp).
  rewrite (map_nth (fun i => nth (t i) x [])), seq_nth by exact Hp. reflexivity.
Qed.
Lemma renumbered_row N t x p : (p < N)%nat -> nth p (renumbered N t x) [] = nth (t p) x [].
Proof.
  intros Hp. unfold renumbered. rewrite (nth_indep _ [] (nth (t 0%nat) x [])) by (rewrite map_length, seq_length; exact Hp).
  rewrite (map_nth (fun i => nth (t i) x [])), seq_nth by exact Hp. reflexivity.
Qed.

Lemma field_renumbered s t N D x : renumbering N s t -> field N D x -> field N D (renumbered N t x).
Proof.
  intros RN [L F]. split; [unfold renumbered; rewrite map_length; apply seq_length|]. apply Forall_forall. intros r Hr. apply in_map_iff in Hr. destruct Hr as (i & <- & Hi). apply in_seq in Hi.
  apply (proj1 (Forall_forall _ _) F), nth_In. rewrite L. apply (RN i). lia.
Qed.

Section Renumbered.
Context (m : material) (d : domain) (s t : nat -> nat) (N : nat).
Hypothesis Sd : solid d.
Hypothesis LN : length (positions d) = N.
Hypothesis RN : renumbering N s t.
Let d' := renumbered_mesh s t d.
Lemma renumbered_field D x : field N D x -> field N D (renumbered N t x).
Proof. apply (field_renumbered s t N D x RN). Qed.
Lemma renumbered_solid : solid d'.
Proof.
  destruct Sd as (W & Dm & F). rewrite LN in F. assert (F' : field N 3 (positions d')) by (cbn [positions d' renumbered_mesh]; rewrite LN; apply renumbered_field; exact F).
  split; [|split; [exact Dm|rewrite (proj1 F'); exact F'] ]. unfold well_formed. rewrite (proj1 F'). apply Forall_forall. intros row' H. apply in_map_iff in H. destruct H as (row & <- & Hr).
  destruct (solid_row d row Sd Hr) as [Lr Fr]. split; [rewrite map_length; exact Lr|]. apply Forall_forall. intros j Hj. apply in_map_iff in Hj. destruct Hj as (i & <- & Hi). apply RN. rewrite <- LN. exact (proj1 (Forall_forall _ _) Fr i Hi).
Qed.
Lemma gather_renumbered x row : Forall (fun i => (i < N)%nat) row -> gather (renumbered N t x) (map s row) = gather x row.
Proof.
  intros F. unfold gather. rewrite map_map. apply map_ext_in. intros i Hi. destruct (RN i (proj1 (Forall_forall _ _) F i Hi)) as ((H1 & _) & H2 & _). rewrite renumbered_row by exact H1. rewrite H2. reflexivity.
Qed.
Lemma nodes_renumbered row : Forall (fun i => (i < N)%nat) row -> nodes_of_element d' (map s row) = nodes_of_element d row.
Proof. intros F. unfold nodes_of_element at 1. cbn [d' renumbered_mesh positions]. rewrite LN. apply (gather_renumbered (positions d) row F). Qed.
Lemma quad_renumbered row : Forall (fun i => (i < N)%nat) row -> quad d' (map s row) = quad d row.
Proof. intros F. unfold quad. rewrite nodes_renumbered by exact F. reflexivity. Qed.
Lemma number_test row a p : Forall (fun i => (i < N)%nat) row -> (a < length row)%nat -> (p < N)%nat -> Nat.eqb (nth a (map s row) 0%nat) p = Nat.eqb (nth a row 0%nat) (t p).
Proof.
  intros F Ha Hp. rewrite (nth_indep _ 0%nat (s 0%nat)) by (rewrite map_length; exact Ha). rewrite map_nth.
  assert (Hi : (nth a row 0 < N)%nat) by (apply (proj1 (Forall_forall _ _) F), nth_In, Ha). destruct (RN _ Hi) as (_ & T & _). destruct (RN p Hp) as (_ & _ & S2).
  destruct (Nat.eqb_spec (s (nth a row 0%nat)) p) as [E|E], (Nat.eqb_spec (nth a row 0%nat) (t p)) as [E'|E']; try reflexivity; exfalso.
  - apply E'. rewrite <- E. symmetry. exact T.
  - apply E. rewrite E'. exact S2.
Qed.
Lemma renumbered_forces x f : field N 3 x -> field N 3 f -> addForce m d' (renumbered N t x) (renumbered N t f) = option_map (renumbered N t) (addForce m d x f).
Proof.
  intros Fx Ff. pose proof renumbered_solid as Sd'.
  destruct (addForce_spec m d x f N (proj1 Sd) LN (proj1 Fx) Ff) as (f1 & -> & F1 & E1).
  destruct (addForce_spec m d' (renumbered N t x) (renumbered N t f) N (proj1 Sd')) as (f2 & -> & F2 & E2);
    [cbn [d' renumbered_mesh positions]; unfold renumbered; rewrite map_length, seq_length; exact LN|apply (renumbered_field 3), Fx|apply renumbered_field, Ff|].
  cbn [option_map]. f_equal. apply (nth_ext _ _ [] []); [rewrite (proj1 F2), (proj1 (renumbered_field 3 f1 F1)); reflexivity|]. intros p Hp. rewrite (proj1 F2) in Hp.
  pose proof (HyperProofs2.field_row N f2 p F2 Hp) as L2. pose proof (HyperProofs2.field_row N _ p (renumbered_field 3 f1 F1) Hp) as L1.
  apply (nth_ext _ _ 0 0); [congruence|]. intros c Hc. rewrite L2 in Hc. change (entries f2 p c = entries (renumbered N t f1) p c). rewrite (E2 p c Hc), !renumbered_entries, (E1 (t p) c Hc) by exact Hp. f_equal.
  cbn [d' renumbered_mesh connectivity]. rewrite map_map. apply Rsum_ext. intros row Hr. destruct (solid_row d row Sd Hr) as [Lr Fr]. rewrite LN in Fr. apply Rsum_ext. intros a Ha. apply in_seq in Ha.
  change (kind d') with (kind d) in Ha. rewrite number_test by (first [exact Fr | lia]). fold d'. rewrite gather_renumbered, quad_renumbered by exact Fr. reflexivity.
Qed.
Lemma renumbered_energy x : field N 3 x -> getPotentialEnergy m d' (renumbered N t x) = getPotentialEnergy m d x.
Proof.
  intros Fx. unfold getPotentialEnergy. cbn [d' renumbered_mesh positions connectivity]. rewrite LN, (proj1 (renumbered_field 3 x Fx)).
  replace (length (renumbered N t (positions d))) with N by (symmetry; unfold renumbered; rewrite map_length; apply seq_length). rewrite (proj1 Fx). destruct (negb _); [reflexivity|].
  rewrite map_map. apply Rsum_ext. intros row Hr. destruct (solid_row d row Sd Hr) as [Lr Fr]. rewrite LN in Fr. unfold element_energy.
  fold d'. rewrite (nodes_renumbered row Fr), map_map. cbn [d' renumbered_mesh positions]. rewrite LN. f_equal.
  rewrite (map_ext_in _ (fun i => vminus (nth i x []) (nth i (positions d) []))); [reflexivity|]. intros i Hi. destruct (RN i (proj1 (Forall_forall _ _) Fr i Hi)) as ((H1 & _) & H2 & _). rewrite !renumbered_row by exact H1. rewrite H2. reflexivity.
Qed.
Lemma renumbered_distinct : distinct_nodes d -> distinct_nodes d'.
Proof.
  intros ND. apply Forall_forall. intros row' H. cbn [d' renumbered_mesh connectivity] in H. apply in_map_iff in H. destruct H as (row & <- & Hr). destruct (solid_row d row Sd Hr) as [Lr Fr]. rewrite LN in Fr.
  pose proof (proj1 (Forall_forall _ _) ND row Hr) as Nr. clear Hr Lr. induction row as [|i row IH]; [constructor|]. apply Forall_cons_iff in Fr. destruct Fr as [Hi Fr]. apply NoDup_cons_iff in Nr. destruct Nr as [NI Nr]. cbn [map]. constructor; [|apply IH; assumption].
  intros H. apply in_map_iff in H. destruct H as (j & E & Hj). apply NI. destruct (RN i Hi) as (_ & T & _). destruct (RN j (proj1 (Forall_forall _ _) Fr j Hj)) as (_ & T' & _). rewrite <- T, <- E, T'. exact Hj.
Qed.
Lemma renumbered_increments x k v df : distinct_nodes d -> field N 3 x -> field N 3 v -> field N 3 df ->
  exists df', field N 3 df' /\ addDForce (assemble_stiffness m d x) (N * 3) k (concat v) (concat df) = Some (concat df') /\
    addDForce (assemble_stiffness m d' (renumbered N t x)) (N * 3) k (concat (renumbered N t v)) (concat (renumbered N t df)) = Some (concat (renumbered N t df')).
Proof.
  intros ND Fx Fv Fd. pose proof renumbered_solid as Sd'. pose proof (renumbered_field 3 v Fv) as Fv'. pose proof (renumbered_field 3 df Fd) as Fd'.
  assert (Lc : forall h, field N 3 h -> length (concat h) = (N * 3)%nat) by (intros h [L F]; rewrite concat_length3 by exact F; lia).
  assert (LN' : length (positions d') = N) by (cbn [d' renumbered_mesh positions]; unfold renumbered; rewrite map_length, seq_length; exact LN).
  destruct (HyperProofs4.addDForce_spec _ (N * 3) k (concat v) (concat df) (assemble_inside m d x N (proj1 Sd) LN) (Lc _ Fd)) as (D1 & E1 & L1 & P1).
  destruct (HyperProofs4.addDForce_spec _ (N * 3) k (concat (renumbered N t v)) (concat (renumbered N t df)) (assemble_inside m d' (renumbered N t x) N (proj1 Sd') LN') (Lc _ Fd')) as (D2 & E2 & L2 & P2).
  pose proof (grouped_field N D1) as F1. exists (grouped N D1). split; [exact F1|]. rewrite E1, E2. split; f_equal.
  - apply (flat_equal N); [exact L1|exact F1|]. intros p c Hp Hc. symmetry. apply grouped_entries; assumption.
  - apply (flat_equal N); [exact L2|apply renumbered_field, F1|]. intros p c Hp Hc. assert (Ht : (t p < N)%nat) by apply (RN p Hp). rewrite renumbered_entries, grouped_entries by assumption.
    rewrite P2, P1, !concat_nth by (first [apply Fd' | apply Fd | assumption]). rewrite renumbered_entries by exact Hp. f_equal. f_equal.
    rewrite (operator_row m d x v N (t p) c (proj1 Sd) ND Fv Hc), (operator_row m d' _ _ N p c (proj1 Sd') (renumbered_distinct ND) Fv' Hc).
    cbn [d' renumbered_mesh connectivity]. rewrite map_map. apply Rsum_ext. intros row Hr. destruct (solid_row d row Sd Hr) as [Lr Fr]. rewrite LN in Fr. rewrite map_length. apply Rsum_ext. intros a Ha. apply in_seq in Ha.
    rewrite number_test by (first [exact Fr | lia]). destruct (Nat.eqb _ (t p)); [|reflexivity]. apply Rsum_ext. intros b Hb. apply in_seq in Hb. apply sum3_ext. intros l Hl.
    fold d'. unfold block. rewrite gather_renumbered, quad_renumbered by exact Fr. f_equal.
    rewrite (nth_indep _ 0%nat (s 0%nat)) by (rewrite map_length; lia). rewrite map_nth. assert (Hi : (nth b row 0 < N)%nat) by (apply (proj1 (Forall_forall _ _) Fr), nth_In; lia).
    destruct (RN _ Hi) as ((H1 & _) & H2 & _). rewrite renumbered_entries by exact H1. rewrite H2. reflexivity.
Qed.
Lemma renumbered_regular : regular d -> regular d'.
Proof.
  intros RG. apply Forall_forall. intros row' H. cbn [d' renumbered_mesh connectivity] in H. apply in_map_iff in H. destruct H as (row & <- & Hr). destruct (solid_row d row Sd Hr) as [Lr Fr]. rewrite LN in Fr.
  unfold local_volume. rewrite nodes_renumbered by exact Fr. exact (proj1 (Forall_forall _ _) RG row Hr).
Qed.
End Renumbered.
