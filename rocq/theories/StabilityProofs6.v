(** Quadratic hexahedra: motions without strain that are not rigid (C93). *)

From Coq Require Import ZArith Reals Lra Lia.
From Coquelicot Require Import Coquelicot.
From Coq Require Import List Arith Bool.
From Verif Require Import GridGeoModel ShapeModel ShapeSpec ShapeProofs ShapeGaussProofs LinAlg LinAlgProofs BarycentricModel MappingSpec MappingProofs TensorModel TensorSpec
  MaterialModel MaterialSpec MaterialProofs MaterialProperties SparseModel SparseProofs Sums HyperModel HyperSpec HyperProofs HyperProofs2 HyperProofs3 HyperProofs4 HyperProperties
  SpectrumProofs StabilitySpec StabilityProofs StabilityProofs2.
Import ListNotations.
Open Scope R_scope.

Lemma combine_seq (f : nat -> nat -> R) cs n i : length cs = n ->
  combination (combine cs (map f (seq 0 n))) i = Rsum (map (fun j => nth j cs 0 * f j i) (seq 0 n)).
Proof.
  intros L. unfold combination. f_equal. apply (nth_ext _ _ 0 0).
  - rewrite !map_length, combine_length, map_length, seq_length. lia.
  - intros j Hj. rewrite map_length, combine_length, map_length, seq_length in Hj.
    rewrite (nth_indep _ 0 ((fun p : R * (nat -> R) => fst p * snd p i) (0, f 0%nat))) by (rewrite map_length, combine_length, map_length, seq_length; lia).
    rewrite (map_nth (fun p : R * (nat -> R) => fst p * snd p i)), combine_nth by (rewrite map_length, seq_length; lia). cbn [fst snd].
    rewrite (map_nth f). rewrite (nth_indep (map _ (seq 0 n)) 0 ((fun j => nth j cs 0 * f j i) 0%nat)) by (rewrite map_length, seq_length; lia).
    rewrite (map_nth (fun j => nth j cs 0 * f j i)), seq_nth by lia. reflexivity.
Qed.

Section Hexahedron.
Context (d : domain) (row fixed : list nat).
Hypothesis Sd : solid d.
Hypothesis HK : kind d = Hexahedron_Quadratic.
Hypothesis HC : connectivity d = [row].
Hypothesis HN : length (positions d) = 20%nat.
Hypothesis HL : length fixed = 3%nat.
Hypothesis HB : Forall (fun p => (p < 20)%nat) fixed.

Let Hr : In row (connectivity d). Proof. rewrite HC. left. reflexivity. Qed.
Lemma row20 : length row = 20%nat.
Proof. rewrite (proj1 (solid_row d row Sd Hr)), HK. reflexivity. Qed.
Lemma row_lt a : (a < 20)%nat -> (nth a row 0 < 20)%nat.
Proof. intros Ha. rewrite <- HN. apply (proj1 (Forall_forall _ _) (proj2 (solid_row d row Sd Hr))). apply nth_In. rewrite row20. exact Ha. Qed.

Let gs := gauss_nodes (kind d).
Let dN (q a b : nat) : R := entries (dN_dx (the_node d row (nth q gs ([], 0)))) a b.
Definition slope (V : nat -> nat -> R) (q i j : nat) : R := Rsum (map (fun a => V (nth a row 0%nat) i * dN q a j) (seq 0 20)).
Definition equation (V : nat -> nat -> R) (i : nat) : R :=
  if Nat.ltb i 48 then let p := nth (i mod 6) voigt (0, 0)%nat in slope V (i / 6) (fst p) (snd p) + slope V (i / 6) (snd p) (fst p)
  else V (nth ((i - 48) / 3) fixed 0%nat) ((i - 48) mod 3).
Let unit (j p c : nat) : R := if Nat.eqb j (p * 3 + c) then 1 else 0.
Definition mode_of (cs : list R) (p c : nat) : R := nth (p * 3 + c) cs 0.

Lemma mode_units cs p c : (p < 20)%nat -> (c < 3)%nat -> Rsum (map (fun j => nth j cs 0 * unit j p c) (seq 0 60)) = mode_of cs p c.
Proof.
  intros Hp Hc. rewrite (Rsum_ext _ _ (fun j => if Nat.eqb (p * 3 + c) j then nth j cs 0 else 0)).
  - apply (Rsum_delta (fun j => nth j cs 0)). lia.
  - intros j _. unfold unit. rewrite (Nat.eqb_sym (p * 3 + c)). destruct (Nat.eqb j (p * 3 + c)); ring.
Qed.
Lemma slope_units cs q i j : (i < 3)%nat -> Rsum (map (fun k => nth k cs 0 * slope (unit k) q i j) (seq 0 60)) = slope (mode_of cs) q i j.
Proof.
  intros Hi. unfold slope. rewrite (Rsum_ext _ _ (fun k => Rsum (map (fun a => nth k cs 0 * unit k (nth a row 0%nat) i * dN q a j) (seq 0 20)))).
  2:{ intros k _. rewrite <- Rsum_scal_l. apply Rsum_ext. intros a _. ring. }
  rewrite Rsum_swap. apply Rsum_ext. intros a Ha. apply in_seq in Ha. rewrite Rsum_scal_r. f_equal. apply mode_units; [|exact Hi]. apply row_lt. lia.
Qed.
Lemma equation_units cs i : (i < 57)%nat -> Rsum (map (fun k => nth k cs 0 * equation (unit k) i) (seq 0 60)) = equation (mode_of cs) i.
Proof.
  intros Hi. unfold equation. destruct (Nat.ltb_spec i 48) as [H|H].
  - set (p := nth (i mod 6) voigt (0, 0)%nat).
    assert (P : (fst p < 3)%nat /\ (snd p < 3)%nat).
    { unfold p. pose proof (Nat.mod_upper_bound i 6 ltac:(lia)). destruct (i mod 6) as [|[|[|[|[|[|]]]]]]; cbn; lia. }
    rewrite (Rsum_ext _ _ (fun k => nth k cs 0 * slope (unit k) (i / 6) (fst p) (snd p) + nth k cs 0 * slope (unit k) (i / 6) (snd p) (fst p))) by (intros k _; ring).
    rewrite Rsum_plus, !slope_units by apply P. reflexivity.
  - apply mode_units; [|apply Nat.mod_upper_bound; lia]. apply (proj1 (Forall_forall _ _) HB). apply nth_In. rewrite HL. apply Nat.div_lt_upper_bound; lia.
Qed.

Lemma spurious_mode : exists v, field 20 3 v /\ (exists p, (p < 20)%nat /\ nth p v [] <> [0; 0; 0]) /\ held fixed v /\ strain_free d v.
Proof.
  destruct (dependent 57 (map (fun k i => equation (unit k) i) (seq 0 60))) as (cs & Lc & (c & Hc & Nc) & Z); [rewrite map_length, seq_length; lia|].
  rewrite map_length, seq_length in Lc.
  assert (Eq : forall i, (i < 57)%nat -> equation (mode_of cs) i = 0).
  { intros i Hi. rewrite <- (equation_units cs i Hi), <- (combine_seq (fun k i => equation (unit k) i) cs 60 i Lc). exact (Z i Hi). }
  set (v := map (fun p => map (fun c => mode_of cs p c) (seq 0 3)) (seq 0 20)).
  assert (Nv : forall p, (p < 20)%nat -> nth p v [] = map (fun c => mode_of cs p c) (seq 0 3)).
  { intros p Hp. unfold v. rewrite (nth_indep _ [] ((fun p => map (fun c => mode_of cs p c) (seq 0 3)) 0%nat)) by (rewrite map_length, seq_length; exact Hp).
    rewrite (map_nth (fun p => map (fun c => mode_of cs p c) (seq 0 3))), seq_nth by exact Hp. reflexivity. }
  assert (Ev : forall p k, (p < 20)%nat -> (k < 3)%nat -> entries v p k = mode_of cs p k).
  { intros p k Hp Hk. unfold entries. rewrite Nv by exact Hp. destruct k as [|[|[|]]]; try lia; reflexivity. }
  exists v. split; [|split; [|split]].
  - split; [unfold v; rewrite map_length, seq_length; reflexivity|]. apply Forall_forall. intros r Hr'. unfold v in Hr'. apply in_map_iff in Hr'. destruct Hr' as (p & <- & _). reflexivity.
  - apply (In_nth cs c 0) in Hc. destruct Hc as (j & Hj & <-). exists (j / 3)%nat. split; [apply Nat.div_lt_upper_bound; lia|].
    rewrite Nv by (apply Nat.div_lt_upper_bound; lia). intros E. apply Nc.
    pose proof (Nat.div_mod j 3 ltac:(lia)) as D. pose proof (Nat.mod_upper_bound j 3 ltac:(lia)) as U.
    replace j with (j / 3 * 3 + j mod 3)%nat by lia. change (mode_of cs (j / 3) (j mod 3) = 0).
    cbn [map seq] in E. injection E as E0 E1 E2. destruct (j mod 3) as [|[|[|]]]; try lia; assumption.
  - intros p Hp. apply (In_nth fixed p 0%nat) in Hp. destruct Hp as (k & Hk & <-). rewrite HL in Hk.
    assert (P : (nth k fixed 0 < 20)%nat) by (apply (proj1 (Forall_forall _ _) HB); apply nth_In; lia).
    rewrite Nv by exact P. cbn [map seq].
    assert (Q : forall e, (e < 3)%nat -> mode_of cs (nth k fixed 0%nat) e = 0).
    { intros e He. specialize (Eq (48 + (k * 3 + e))%nat ltac:(lia)). unfold equation in Eq.
      destruct (Nat.ltb_spec (48 + (k * 3 + e)) 48) as [C|_]; [lia|].
      replace (48 + (k * 3 + e) - 48)%nat with (e + k * 3)%nat in Eq by lia.
      rewrite Nat.div_add, Nat.mod_add, Nat.div_small, Nat.mod_small in Eq by lia. exact Eq. }
    rewrite !Q by lia. reflexivity.
  - intros r q Hr' Hq. rewrite HC in Hr'. destruct Hr' as [<-|[]]. rewrite <- (gradient_is_displacement d row q Sd Hr).
    apply (In_nth _ q ([], 0)) in Hq. destruct Hq as (k & Hk & <-). fold gs in Hk |- *. assert (Hk8 : (k < 8)%nat) by (unfold gs in Hk; rewrite HK in Hk; exact Hk).
    assert (G : forall i j, (i < 3)%nat -> (j < 3)%nat -> entries (gradient v row (the_node d row (nth k gs ([], 0)))) i j = slope (mode_of cs) k i j).
    { intros i j Hi Hj. rewrite gradient_entries by assumption. unfold grad, slope. rewrite row20. apply Rsum_ext. intros a Ha. apply in_seq in Ha.
      rewrite gather_entries by (rewrite row20; lia). rewrite Ev; [reflexivity|apply row_lt; lia|exact Hi]. }
    assert (Q : forall alpha, (alpha < 6)%nat -> let p := nth alpha voigt (0, 0)%nat in slope (mode_of cs) k (fst p) (snd p) + slope (mode_of cs) k (snd p) (fst p) = 0).
    { intros alpha Ha. specialize (Eq (alpha + k * 6)%nat ltac:(lia)). unfold equation in Eq. destruct (Nat.ltb_spec (alpha + k * 6) 48) as [_|C]; [|lia].
      rewrite Nat.div_add, Nat.mod_add, Nat.div_small, Nat.mod_small in Eq by lia. exact Eq. }
    unfold strain. apply of_entries_ext. intros i j Hi Hj. rewrite !G by assumption.
    pose proof (Q 0%nat ltac:(lia)) as Q0. pose proof (Q 1%nat ltac:(lia)) as Q1. pose proof (Q 2%nat ltac:(lia)) as Q2.
    pose proof (Q 3%nat ltac:(lia)) as Q3. pose proof (Q 4%nat ltac:(lia)) as Q4. pose proof (Q 5%nat ltac:(lia)) as Q5. unfold voigt in *. cbn [nth fst snd] in *.
    destruct i as [|[|[|]]], j as [|[|[|]]]; try lia; lra.
Qed.
End Hexahedron.
