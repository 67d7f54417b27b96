(** Proofs for C105: the loads depend on the surface through the weights of its nodes only. *)

From Coq Require Import ZArith Reals Lra Lia.
From Coquelicot Require Import Coquelicot.
From Coq Require Import List Arith Bool Permutation.
From Flocq Require Import Core.Raux.
From Verif Require Import GridGeoModel ShapeModel ShapeSpec ShapeProofs LinAlg LinAlgProofs RectModel BarycentricModel MappingSpec Sums TractionModel TractionSpec TractionProofs NumberingSpec SurfaceSpec.
Import ListNotations.
Open Scope R_scope.

Lemma vadd_length a b D : length a = D -> length b = D -> length (vadd a b) = D.
Proof. intros A B. unfold vadd. rewrite LinAlgProofs.map2_length; congruence. Qed.
Lemma vadd_nth a b c : length a = length b -> nth c (vadd a b) 0 = nth c a 0 + nth c b 0.
Proof. unfold vadd. revert b c. induction a as [|p a IH]; intros [|q b] c H; try discriminate; [destruct c; simpl; lra|]. destruct c; simpl; [reflexivity|]. apply IH. simpl in H. congruence. Qed.
Lemma vminus_vadd a b : vminus a b = vadd a (map (fun x => x * -1) b).
Proof. unfold vminus, vadd. revert b. induction a as [|x a IH]; intros [|y b]; try reflexivity. simpl. rewrite IH. f_equal. ring. Qed.
Lemma repeat_zero_scaled D : repeat 0 D = map (fun x => x * 0) (repeat 0 D).
Proof. induction D as [|D IH]; [reflexivity|]. simpl. rewrite <- IH. f_equal. ring. Qed.
Lemma field_row N D f i : field N D f -> (i < N)%nat -> length (nth i f []) = D.
Proof. intros [L F] Hi. apply (proj1 (Forall_forall _ _) F). apply nth_In. lia. Qed.
Lemma fields_same N D f g : field N D f -> field N D g -> (forall i, (i < N)%nat -> forall k, nth k (nth i f []) 0 = nth k (nth i g []) 0) -> f = g.
Proof.
  intros Ff Fg H. apply (nth_ext _ _ [] []); [rewrite (proj1 Ff), (proj1 Fg); reflexivity|]. intros i Hi. rewrite (proj1 Ff) in Hi.
  apply (nth_ext _ _ 0 0); [rewrite (field_row N D f i Ff Hi), (field_row N D g i Fg Hi); reflexivity|]. intros k _. apply H. exact Hi.
Qed.

(** ** Two surfaces with the same weights, up to a linear isometry of the vectors and to the numbers of the nodes *)
Record linear_isometry (D : nat) (q : list R -> list R) : Prop := {
  q_length : forall v, length v = D -> length (q v) = D;
  q_add : forall v w, length v = D -> length w = D -> q (vadd v w) = vadd (q v) (q w);
  q_scale : forall v s, length v = D -> q (map (fun x => x * s) v) = map (fun x => x * s) (q v);
  q_norm : forall v, length v = D -> norm (q v) = norm v }.
Definition image (N : nat) (q : list R -> list R) (t : nat -> nat) (s : state) : state :=
  {| nodal_forces := map (fun i => q (nth (t i) (nodal_forces s) [])) (seq 0 N); total_load := total_load s; is_constant := is_constant s;
     current_traction := q (current_traction s); steps_since_last_increment := steps_since_last_increment s |}.

Section Image.
Context (c c' : config) (q : list R -> list R) (t : nat -> nat) (N D : nat).
Hypothesis HN : length (positions (surface c)) = N.
Hypothesis HN' : length (positions (surface c')) = N.
Hypothesis HD : dim (surface c) = D.
Hypothesis HD' : dim (surface c') = D.
Hypothesis WF : well_formed (surface c).
Hypothesis WF' : well_formed (surface c').
Hypothesis Ht : length (traction c) = D.
Hypothesis Et : traction c' = q (traction c).
Hypothesis Es : slope c' = slope c.
Hypothesis En : steps_before_increment c' = steps_before_increment c.
Hypothesis Q : linear_isometry D q.
Hypothesis T : forall i, (i < N)%nat -> (t i < N)%nat.
Hypothesis W : forall i, (i < N)%nat -> node_weight (surface c') i = node_weight (surface c) (t i).
Hypothesis A : area (surface c') = area (surface c).

Definition sound (s : state) : Prop := field N D (nodal_forces s) /\ length (current_traction s) = D.
Lemma image_field s : sound s -> field N D (nodal_forces (image N q t s)).
Proof.
  intros [F _]. split; [cbn [image nodal_forces]; rewrite map_length; apply seq_length|]. apply Forall_forall. intros v Hv. cbn [image nodal_forces] in Hv. apply in_map_iff in Hv. destruct Hv as (i & <- & Hi). apply in_seq in Hi.
  apply (q_length _ _ Q). apply (field_row N D _ _ F). apply T. lia.
Qed.
Lemma image_row s i : (i < N)%nat -> nth i (nodal_forces (image N q t s)) [] = q (nth (t i) (nodal_forces s) []).
Proof.
  intros Hi. cbn [image nodal_forces]. set (h := fun i => q (nth (t i) (nodal_forces s) [])). rewrite (nth_indep _ [] (h 0%nat)) by (rewrite map_length, seq_length; exact Hi). rewrite (map_nth h), seq_nth by exact Hi. reflexivity.
Qed.
Lemma increment_image s u : sound s -> length u = D -> exists s1, increment_load c s u = Some s1 /\ sound s1 /\ increment_load c' (image N q t s) (q u) = Some (image N q t s1).
Proof.
  intros S Hu. destruct (increment_load_spec c s u WF) as (s1 & E1 & F1 & N1 & T1 & I1 & C1 & K1); [rewrite HD; exact Hu|rewrite HN, HD; apply S|].
  destruct (increment_load_spec c' (image N q t s) (q u) WF') as (s2 & E2 & F2 & N2 & T2 & I2 & C2 & K2); [rewrite HD'; apply (q_length _ _ Q); exact Hu|rewrite HN', HD'; apply image_field; exact S|].
  rewrite HN, HD in F1. rewrite HN', HD' in F2. exists s1. split; [exact E1|]. assert (S1 : sound s1) by (split; [exact F1|rewrite C1; apply S]). split; [exact S1|]. rewrite E2. f_equal.
  assert (NF : nodal_forces s2 = nodal_forces (image N q t s1)).
  { apply (fields_same N D _ _ F2 (image_field _ S1)). intros i Hi k. rewrite N2, !image_row by exact Hi. rewrite (W i Hi).
    assert (E : nth (t i) (nodal_forces s1) [] = vadd (nth (t i) (nodal_forces s) []) (map (fun x => x * node_weight (surface c) (t i)) u)).
    { assert (L0 : length (nth (t i) (nodal_forces s) []) = D) by (apply (field_row N D _ _ (proj1 S)), T, Hi).
      apply (nth_ext _ _ 0 0); [rewrite (field_row N D _ _ F1 (T i Hi)); symmetry; apply vadd_length; [exact L0|rewrite map_length; exact Hu]|].
      intros k' _. rewrite N1, vadd_nth by (rewrite map_length; congruence). rewrite (nth_map0 (fun x => x * node_weight (surface c) (t i))) by ring. reflexivity. }
    rewrite E. assert (L0 : length (nth (t i) (nodal_forces s) []) = D) by (apply (field_row N D _ _ (proj1 S)), T, Hi).
    rewrite (q_add _ _ Q) by (first [exact L0 | rewrite map_length; exact Hu]). rewrite (q_scale _ _ Q) by exact Hu.
    rewrite vadd_nth by (rewrite map_length, !(q_length _ _ Q) by assumption; reflexivity). rewrite (nth_map0 (fun x => x * node_weight (surface c) (t i))) by ring. reflexivity. }
  destruct s2 as [nf2 tl2 ic2 ct2 ss2]. cbn [nodal_forces total_load is_constant current_traction steps_since_last_increment image] in *. subst. unfold image. f_equal; try congruence.
  rewrite T1. f_equal. rewrite !norm_scale, A, (q_norm _ _ Q) by exact Hu. reflexivity.
Qed.
Lemma q_zero : q (repeat 0 D) = repeat 0 D.
Proof.
  rewrite (repeat_zero_scaled D) at 1. rewrite (q_scale _ _ Q) by apply repeat_length.
  assert (L : length (q (repeat 0 D)) = D) by (apply (q_length _ _ Q), repeat_length). revert L. generalize (q (repeat 0 D)) as v. clear. revert D.
  intros D v. revert D. induction v as [|x v IH]; intros [|D] L; try discriminate; [reflexivity|]. simpl. f_equal; [ring|]. apply IH. simpl in L. congruence.
Qed.
Lemma zero_field : field N D (repeat (repeat 0 D) N).
Proof. split; [apply repeat_length|]. apply Forall_forall. intros r Hr. apply repeat_spec in Hr. subst r. apply repeat_length. Qed.
Lemma init_image : exists s, init c = Some s /\ sound s /\ init c' = Some (image N q t s).
Proof.
  unfold init. rewrite HN, HN', HD, HD', Es, En, Et. set (k := (_ && _)%bool).
  set (s0 := {| nodal_forces := _ |}).
  assert (S0 : sound s0) by (split; [exact zero_field|apply repeat_length]).
  assert (I0 : image N q t s0 = s0).
  { unfold image, s0. cbn [nodal_forces total_load is_constant current_traction steps_since_last_increment]. rewrite q_zero. f_equal.
    apply (nth_ext _ _ [] []); [rewrite map_length, seq_length, repeat_length; reflexivity|]. intros i Hi. rewrite map_length, seq_length in Hi.
    change (map (fun i => q (nth (t i) (repeat (repeat 0 D) N) [])) (seq 0 N)) with (nodal_forces (image N q t s0)). rewrite image_row by exact Hi. cbn [s0 nodal_forces].
    assert (Z : forall j, (j < N)%nat -> nth j (repeat (repeat 0 D) N) [] = repeat 0 D) by (intros j Hj; apply (repeat_spec N), nth_In; rewrite repeat_length; exact Hj).
    rewrite !Z by (first [exact Hi | apply T; exact Hi]). apply q_zero. }
  destruct k.
  - destruct (increment_image s0 (traction c) S0 Ht) as (s1 & E1 & S1 & E2). rewrite I0 in E2. exists s1. auto.
  - exists s0. rewrite I0. auto.
Qed.
Lemma event_image s e : sound s -> exists s1, handleEvent c s e = Some s1 /\ sound s1 /\ handleEvent c' (image N q t s) e = Some (image N q t s1).
Proof.
  intros S. unfold handleEvent. cbn [image is_constant current_traction steps_since_last_increment total_load]. rewrite En, Et, Es. destruct (negb e); [eauto|]. destruct (is_constant s) eqn:IC; [eauto|].
  rewrite !(q_norm _ _ Q) by (first [exact Ht | apply S]). destruct (Rle_bool _ _); [eauto|]. destruct (Nat.ltb _ _).
  { eexists. split; [reflexivity|]. split; [exact S|]. unfold image. cbn [nodal_forces total_load is_constant current_traction steps_since_last_increment]. rewrite ?IC. reflexivity. }
  assert (LS : length (map (fun x => x * slope c) (traction c)) = D) by (rewrite map_length; exact Ht).
  rewrite <- (q_scale _ _ Q) by exact Ht. rewrite <- (q_add _ _ Q) by (first [exact LS | apply S]). rewrite (q_norm _ _ Q) by (apply vadd_length; [apply S|exact LS]).
  assert (V : vminus (q (traction c)) (q (current_traction s)) = q (vminus (traction c) (current_traction s))).
  { rewrite !vminus_vadd, <- (q_scale _ _ Q), <- (q_add _ _ Q) by (first [exact Ht | rewrite map_length; apply S | apply S]). reflexivity. }
  rewrite V. set (b := Rlt_bool _ _).
  replace (if b then q (vminus (traction c) (current_traction s)) else q (map (fun x => x * slope c) (traction c))) with (q (if b then vminus (traction c) (current_traction s) else map (fun x => x * slope c) (traction c))) by (destruct b; reflexivity).
  set (u := if b then _ else _).
  assert (Hu : length u = D) by (unfold u; destruct b; [rewrite vminus_vadd; apply vadd_length; [exact Ht|rewrite map_length; apply S]|exact LS]).
  set (s0 := {| nodal_forces := nodal_forces s; total_load := total_load s; is_constant := false; current_traction := vadd (current_traction s) u; steps_since_last_increment := 0 |}).
  assert (S0 : sound s0) by (split; [apply S|apply vadd_length; [apply S|exact Hu]]).
  destruct (increment_image s0 u S0 Hu) as (s1 & E1 & S1 & E2). exists s1. split; [exact E1|]. split; [exact S1|]. rewrite <- E2. f_equal. unfold image. cbn [s0 nodal_forces total_load is_constant current_traction steps_since_last_increment].
  rewrite (q_add _ _ Q) by (first [exact Hu | apply S]). reflexivity.
Qed.
Lemma run_image events : exists s, run_events c events = Some s /\ sound s /\ run_events c' events = Some (image N q t s).
Proof.
  unfold run_events. destruct init_image as (s & -> & S & ->). revert s S. induction events as [|e events IH]; intros s S; cbn [fold_left]; [eauto|].
  destruct (event_image s e S) as (s1 & -> & S1 & ->). apply IH. exact S1.
Qed.
End Image.
