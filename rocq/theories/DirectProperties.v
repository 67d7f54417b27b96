(** C75: the direct linear solvers over any history of uses. *)

From Coq Require Import Reals Lra Lia.
From Coq Require Import List Arith Bool.
From Verif Require Import ShapeModel Sums DirectModel DirectSpec.
Import ListNotations.
Open Scope R_scope.

Lemma same_pattern_true : forall a b, same_pattern a b = true <-> a = b.
Proof.
  intros [n p] [m q]. unfold same_pattern. cbn [fst snd]. destruct (list_eq_dec position_eq_dec p q) as [E|E].
  - rewrite Nat.eqb_eq. split; [intros ->; rewrite E; reflexivity|congruence].
  - split; [discriminate|congruence].
Qed.
Lemma read_symmetric : forall d A, (d <> LU -> symmetric A) -> forall i j, read_by d (value A) i j = value A i j.
Proof.
  intros d A H i j. destruct d; cbn [read_by]; try reflexivity; unfold lower; destruct (j <=? i)%nat; try reflexivity; apply H; discriminate.
Qed.

Section History.
Variable decompose : decomposition -> nat -> (nat -> nat -> R) -> option (list R -> list R).
Variable analysable : decomposition -> pattern -> bool.
Variable d : decomposition.
Variable fits : matrix -> Prop.

(** The kept analysis is that of every matrix of the current dimension. *)
Let inv (s : component) : Prop := rows (p_A s) <> 0%nat ->
  forall A, fits A -> rows A = rows (p_A s) -> analysis (p_solver s) = Some (pattern_read d A).

Hypothesis H_pos : forall A, fits A -> (0 < rows A)%nat.
Hypothesis H_ana : forall A, fits A -> analysable d (pattern_read d A) = true.

Lemma set_matrix : forall A s, inv s -> fits A ->
  let f := decompose d (rows A) (read_by d (value A)) in
  let ok := match f with Some _ => true | None => false end in
  setSystemMBKMatrix decompose analysable d A s =
    Done (Component A (Eigen (Some (pattern_read d A)) (Some f) ok) ok (p_b s) (p_x s) (mechanical_x s)).
Proof.
  intros A s Hi HA f ok. unfold setSystemMBKMatrix.
  assert (E : analysis (if negb (rows (p_A s) =? rows A)%nat then fst (analyze_pattern analysable d A (p_solver s)) else p_solver s) = Some (pattern_read d A)).
  { destruct (Nat.eqb_spec (rows (p_A s)) (rows A)) as [E|E]; cbn [negb].
    - apply Hi; [rewrite E; specialize (H_pos A HA); lia|exact HA|symmetry; exact E].
    - unfold analyze_pattern. rewrite (H_ana A HA). reflexivity. }
  unfold factorize. rewrite E. destruct (same_pattern (pattern_read d A) (pattern_read d A)) eqn:S; [reflexivity|].
  apply not_true_iff_false in S. exfalso. apply S. apply same_pattern_true. reflexivity.
Qed.
End History.

(** Every solve of every history stores a solution of the system of the matrix and right-hand side given last, or fails, says so and leaves
    the unknown vector as it was, provided that: the matrices of a same dimension have the same pattern, none is empty, their patterns can be
    analysed, they are symmetric (LDLT, LLT) or never singular (LU).
    Missing: the other histories (below). *)
Theorem C75_history_partial : forall decompose analysable d h, exact_decomposition decompose ->
  (forall A B, used h A -> used h B -> rows A = rows B -> stored A = stored B) ->
  (forall A, used h A -> (0 < rows A)%nat) ->
  (forall A, used h A -> analysable d (pattern_read d A) = true) ->
  (forall A b x, In (Use A b x) h -> length b = rows A) ->
  (forall A, used h A -> d <> LU -> symmetric A) ->
  (forall A, used h A -> d = LU -> decompose LU (rows A) (value A) <> None) ->
  exists states, run decompose analysable d h initial = Done states /\
    forall k A b x, nth_error h k = Some (Use A b x) -> exists s, nth_error states k = Some s /\
      (p_A_is_factorized s = true -> solution A b (mechanical_x s)) /\
      (p_A_is_factorized s = false -> mechanical_x s = x) /\
      (p_A_is_factorized s = true <-> decompose d (rows A) (read_by d (value A)) <> None).
Proof.
  intros decompose analysable d h Ex Pat Pos Ana Len Sym Reg.
  assert (Pat' : forall A B, used h A -> used h B -> rows A = rows B -> pattern_read d A = pattern_read d B)
    by (intros A B HA HB E; unfold pattern_read; rewrite E, (Pat A B HA HB E); reflexivity).
  set (fits := used h). 
  assert (Sub : forall A b x, In (Use A b x) h -> fits A) by (intros A b x I; exists b, x; exact I).
  assert (G : forall h', incl h' h -> forall s,
    (rows (p_A s) <> 0%nat -> forall A, fits A -> rows A = rows (p_A s) -> analysis (p_solver s) = Some (pattern_read d A)) ->
    exists states, run decompose analysable d h' s = Done states /\
    forall k A b x, nth_error h' k = Some (Use A b x) -> exists s, nth_error states k = Some s /\
      (p_A_is_factorized s = true -> solution A b (mechanical_x s)) /\
      (p_A_is_factorized s = false -> mechanical_x s = x) /\
      (p_A_is_factorized s = true <-> decompose d (rows A) (read_by d (value A)) <> None)).
  { induction h' as [|c h' IH]; intros I s Hs; [exists []; split; [reflexivity|intros [|k] A b x E; discriminate]|].
    assert (I' : incl h' h) by (intros y Hy; apply I; right; exact Hy).
    assert (I0 : In c h) by (apply I; left; reflexivity).
    destruct c as [A b x|].
    - assert (HA : fits A) by exact (Sub A b x I0).
      cbn [run run_call].
      rewrite (set_matrix decompose analysable d fits Pos Ana A s Hs HA).
      set (f := decompose d (rows A) (read_by d (value A))).
      set (ok := match f with Some _ => true | None => false end).
      set (e := Eigen (Some (pattern_read d A)) (Some f) ok).
      unfold solveSystem. cbn [p_solver setSystemLHVector setSystemRHVector p_b p_x p_A p_A_is_factorized mechanical_x].
      assert (S : exists y, solve d e b x = Done (y, ok) /\ (ok = true -> solution A b y)).
      { unfold solve, e. cbn [factorisation info]. destruct f as [g|] eqn:Ef; subst ok.
        - exists (g b). split; [reflexivity|]. intros _. destruct (Ex d _ _ _ Ef b (Len A b x I0)) as [L Q]. split; [exact L|].
          intros i Hi. rewrite <- (Q i Hi). unfold row_times. apply Rsum_ext. intros j _.
          rewrite (read_symmetric d A); [reflexivity|]. intros Hd. exact (Sym A HA Hd).
        - exists x. split; [|discriminate]. destruct d; try reflexivity. exfalso. exact (Reg A HA eq_refl Ef). }
      destruct S as (y & -> & Sol). cbn beta iota.
      set (s1 := Component A e ok b y (if ok then y else x)).
      destruct (IH I' s1) as (states & -> & K).
      { intros _ B HB E. cbn [p_A p_solver s1 e analysis]. f_equal. apply Pat'; [exact HA|exact HB|]. cbn in E. congruence. }
      exists (s1 :: states). split; [reflexivity|]. intros [|k] A' b' x' E.
      + cbn in E. inversion E; subst A' b' x'. exists s1. split; [reflexivity|]. unfold s1. cbn [p_A_is_factorized mechanical_x]. fold f.
        split; [intros Eok; rewrite Eok; apply Sol, Eok|]. split; [intros ->; reflexivity|].
        unfold ok. destruct f; split; congruence.
      + apply K, E.
    - cbn [run run_call]. destruct (IH I' (resetSystem s)) as (states & -> & K); [intros C; contradiction C; reflexivity|].
      exists (resetSystem s :: states). split; [reflexivity|]. intros [|k] A' b' x' E; [discriminate|apply K, E]. }
  apply (G h (incl_refl h) initial). intros C. contradiction C. reflexivity.
Qed.
Print Assumptions C75_history_partial.

(** ** What breaks it *)

(** A second matrix of the same dimension with another pattern: Eigen's rule is broken, whatever the state and the first use. *)
Theorem C75_new_pattern_refuted : forall decompose analysable d A b x A' b' x' s s1,
  run_call decompose analysable d (Use A b x) s = Done s1 -> rows (p_A s) <> rows A ->
  rows A' = rows A -> pattern_read d A' <> pattern_read d A ->
  run_call decompose analysable d (Use A' b' x') s1 = Misuse.
Proof.
  intros decompose analysable d A b x A' b' x' s s1 E Hs Er Ep.
  cbn [run_call] in E. unfold setSystemMBKMatrix in E. destruct (Nat.eqb_spec (rows (p_A s)) (rows A)) as [C|_]; [contradiction|]. cbn [negb] in E.
  unfold analyze_pattern in E. cbn [fst] in E. unfold factorize in E. cbn [analysis] in E.
  destruct (analysable d (pattern_read d A)); [|discriminate].
  destruct (same_pattern (pattern_read d A) (pattern_read d A)); [|discriminate].
  unfold solveSystem in E. cbn [p_solver setSystemLHVector setSystemRHVector p_b p_x p_A p_A_is_factorized mechanical_x] in E.
  match type of E with match ?t with _ => _ end = _ => destruct t as [[y ok]|]; [|discriminate] end. inversion E; subst s1. clear E.
  cbn [run_call]. unfold setSystemMBKMatrix. cbn [p_A]. rewrite Er, Nat.eqb_refl. cbn [negb p_solver]. unfold factorize. cbn [analysis].
  destruct (same_pattern (pattern_read d A) (pattern_read d A')) eqn:S; [|reflexivity].
  apply same_pattern_true in S. exfalso. apply Ep. symmetry. exact S.
Qed.
Print Assumptions C75_new_pattern_refuted.

(** An empty system at the first use: the factorisation is asked for without an analysis. *)
Theorem C75_empty_system_refuted : forall decompose analysable d A b x, rows A = 0%nat ->
  run_call decompose analysable d (Use A b x) initial = Misuse.
Proof. intros decompose analysable d A b x E. cbn. unfold setSystemMBKMatrix. cbn [p_A initial empty_matrix rows]. rewrite E. reflexivity. Qed.
Print Assumptions C75_empty_system_refuted.

(** A pattern that could not be analysed, or a singular matrix with the LU decomposition, are reported and then used. *)
Theorem C75_failure_refuted : forall decompose analysable d A b x s, rows (p_A s) <> rows A ->
  analysable d (pattern_read d A) = false \/ d = LU /\ decompose LU (rows A) (value A) = None ->
  run_call decompose analysable d (Use A b x) s = Misuse.
Proof.
  intros decompose analysable d A b x s Hs H. cbn [run_call]. unfold setSystemMBKMatrix.
  destruct (Nat.eqb_spec (rows (p_A s)) (rows A)) as [C|_]; [contradiction|]. cbn [negb]. unfold analyze_pattern. cbn [fst]. unfold factorize. cbn [analysis].
  destruct H as [H|[-> H]].
  - rewrite H. reflexivity.
  - destruct (analysable LU (pattern_read LU A)); [|reflexivity].
    destruct (same_pattern (pattern_read LU A) (pattern_read LU A)) eqn:S; [|reflexivity]. cbn [read_by]. rewrite H. reflexivity.
Qed.
Print Assumptions C75_failure_refuted.

(** A matrix that is not symmetric, with LDLT or LLT: the solve is successful and the residual is that of the ignored upper triangle. *)
Theorem C75_unsymmetric_refuted : forall decompose analysable d A b x, exact_decomposition decompose -> d <> LU ->
  (0 < rows A)%nat -> length b = rows A -> analysable d (pattern_read d A) = true -> decompose d (rows A) (lower (value A)) <> None ->
  exists s, run_call decompose analysable d (Use A b x) initial = Done s /\ p_A_is_factorized s = true /\
    forall i, (i < rows A)%nat ->
      row_times (value A) (rows A) (mechanical_x s) i - nth i b 0 =
      Rsum (map (fun j => (if (i <? j)%nat then value A i j - value A j i else 0) * nth j (mechanical_x s) 0) (seq 0 (rows A))).
Proof.
  intros decompose analysable d A b x Ex Hd Pos Len Ana Dec.
  destruct (decompose d (rows A) (lower (value A))) as [f|] eqn:Ef; [clear Dec|congruence].
  assert (Er : read_by d (value A) = lower (value A)) by (destruct d; [reflexivity|reflexivity|congruence]).
  eexists. split; [|split].
  - cbn [run_call]. unfold setSystemMBKMatrix. cbn [p_A initial empty_matrix rows].
    destruct (Nat.eqb_spec 0 (rows A)) as [C|_]; [lia|]. cbn [negb]. unfold analyze_pattern. cbn [fst]. rewrite Ana. unfold factorize. cbn [analysis].
    destruct (same_pattern (pattern_read d A) (pattern_read d A)) eqn:S; [|exfalso; apply not_true_iff_false in S; apply S, same_pattern_true; reflexivity].
    rewrite Er, Ef. cbn [setSystemRHVector setSystemLHVector]. unfold solveSystem. cbn [p_solver setSystemLHVector setSystemRHVector p_b p_x p_A p_A_is_factorized mechanical_x].
    unfold solve. cbn [factorisation info]. reflexivity.
  - reflexivity.
  - intros i Hi. cbn [mechanical_x]. destruct (Ex d _ _ _ Ef b Len) as [_ Q]. rewrite <- (Q i Hi). unfold row_times. rewrite <- Rsum_minus. apply Rsum_ext.
    intros j _. unfold lower. destruct (Nat.leb_spec j i) as [L|L], (Nat.ltb_spec i j) as [M|M]; try lia; ring.
Qed.
Print Assumptions C75_unsymmetric_refuted.

(** ** A case that meets the hypotheses: systems of dimension 2 by Cramer's rule *)

Definition cramer (d : decomposition) (n : nat) (v : nat -> nat -> R) : option (list R -> list R) :=
  let det := v 0%nat 0%nat * v 1%nat 1%nat - v 0%nat 1%nat * v 1%nat 0%nat in
  if Nat.eqb n 2 then if Req_EM_T det 0 then None
    else Some (fun b => [(nth 0 b 0 * v 1%nat 1%nat - nth 1 b 0 * v 0%nat 1%nat) / det; (nth 1 b 0 * v 0%nat 0%nat - nth 0 b 0 * v 1%nat 0%nat) / det])
  else None.
Example C75_cramer_exact : exact_decomposition cramer.
Proof.
  intros d n v f E b Lb. unfold cramer in E. destruct (Nat.eqb_spec n 2) as [->|]; [|discriminate]. destruct (Req_EM_T _ 0) as [|Hd]; [discriminate|].
  inversion E; subst f. split; [reflexivity|]. intros i Hi. destruct i as [|[|]]; [| |lia]; unfold row_times; cbn; field; exact Hd.
Qed.
Definition values (a b c d : R) : nat -> nat -> R :=
  fun i j => match i, j with 0%nat, 0%nat => a | 0%nat, 1%nat => b | 1%nat, 0%nat => c | 1%nat, 1%nat => d | _, _ => 0 end.
Definition full : list (nat * nat) := [(0, 0); (0, 1); (1, 0); (1, 1)]%nat.
Definition A1 : matrix := Matrix 2 full (values 2 1 1 2).
Definition A2 : matrix := Matrix 2 full (values 1 1 1 1).
(** Two uses, the second of a singular matrix, and a reset in between. *)
Definition example_history : list call := [Use A1 [3; 3] [0; 0]; Reset; Use A2 [1; 1] [7; 8]; Use A1 [0; 3] [1; 1]].
Example C75_history_hypotheses :
  (forall A B, used example_history A -> used example_history B -> rows A = rows B -> stored A = stored B) /\
  (forall A, used example_history A -> (0 < rows A)%nat) /\
  (forall A b x, In (Use A b x) example_history -> length b = rows A) /\
  (forall A, used example_history A -> symmetric A) /\
  cramer LDLT 2 (read_by LDLT (value A1)) <> None /\ cramer LDLT 2 (read_by LDLT (value A2)) = None.
Proof.
  assert (U : forall A, used example_history A -> A = A1 \/ A = A2).
  { intros A (b & x & H). cbn in H. destruct H as [H|[H|[H|[H|[]]]]]; inversion H; auto. }
  split; [intros A B HA HB _; destruct (U A HA) as [->| ->], (U B HB) as [->| ->]; reflexivity|].
  split; [intros A HA; destruct (U A HA) as [->| ->]; cbn; lia|].
  split; [intros A b x H; cbn in H; destruct H as [H|[H|[H|[H|[]]]]]; inversion H; reflexivity|].
  split; [intros A HA i j; destruct (U A HA) as [->| ->]; destruct i as [|[|]], j as [|[|]]; reflexivity|].
  unfold cramer. cbn. split; destruct (Req_EM_T _ 0) as [E|E]; try congruence; [lra|exfalso; apply E; lra].
Qed.
(** The matrix ((1, 1), (0, 1)) with LDLT: the upper entry is ignored, and the solution of the system of right-hand side (1, 1) is (1, 1), which misses by 1. *)
Example C75_unsymmetric_example : cramer LDLT 2 (lower (values 1 1 0 1)) <> None /\ ~ symmetric (Matrix 2 full (values 1 1 0 1)).
Proof.
  split; [unfold cramer; cbn; destruct (Req_EM_T _ 0) as [E|E]; [lra|discriminate]|]. intros H. specialize (H 0%nat 1%nat). cbn in H. lra.
Qed.
(** Two patterns of dimension 2 that differ in what LDLT reads. *)
Example C75_new_pattern_example : forall v, pattern_read LDLT (Matrix 2 full v) <> pattern_read LDLT (Matrix 2 [(0, 0); (1, 1)]%nat v).
Proof. intros v. cbn. discriminate. Qed.
