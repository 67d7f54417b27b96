(** C55-C58 and C69: the hyperelastic force field. *)

From Coq Require Import ZArith Reals Lra Lia Permutation.
From Coquelicot Require Import Coquelicot.
From Coq Require Import List Arith Bool.
From Verif Require Import GridGeoModel ShapeModel ShapeSpec ShapeProofs ShapeFieldProofs LinAlg LinAlgProofs RectModel BarycentricModel MappingSpec MappingProofs TensorModel TensorSpec
  MaterialModel MaterialSpec MaterialProofs MaterialProperties SparseModel SparseProofs Sums TractionModel TractionProofs HyperModel HyperSpec HyperProofs HyperProofs2 HyperProofs3 HyperProofs4.
Import ListNotations.
Open Scope R_scope.

Lemma solid_row d row : solid d -> In row (connectivity d) ->
  length row = NumberOfNodes (kind d) /\ Forall (fun i => (i < length (positions d))%nat) row.
Proof. intros (WF & _) Hr. exact (proj1 (Forall_forall _ _) WF row Hr). Qed.

Lemma quad_in d row g : In g (quad d row) -> exists q, In q (gauss_nodes (kind d)) /\ g = the_node d row q.
Proof. unfold quad. rewrite get_gauss_nodes_alt. intros H. apply in_map_iff in H. destruct H as (q & <- & Hq). exists q. auto. Qed.

Lemma quad_positive d x row g : solid d -> not_inverted d x -> In row (connectivity d) -> In g (quad d row) -> 0 < det (gradient x row g).
Proof.
  intros S NI Hr Hg. destruct (quad_in d row g Hg) as (q & Hq & ->). apply gradient_positive.
  - apply S.
  - apply (solid_row d row S Hr).
  - exact (proj1 (Forall_forall _ _) (proj1 (Forall_forall _ _) NI row Hr) q Hq).
Qed.

(** ** C55 *)

(** The forces added by addForce are minus the derivative of the potential energy in every direction.  The Neo-Hookean
    law is defined for non inverted elements only. *)
Theorem C55_forces_are_minus_energy_gradient_partial :
  forall m d x f, solid d -> regular d -> (kind_of m = NeoHookean -> not_inverted d x) ->
    field (length (positions d)) 3 x -> field (length (positions d)) 3 f ->
    exists f', addForce m d x f = Some f' /\ field (length (positions d)) 3 f' /\
      forall v, field (length (positions d)) 3 v ->
        is_derive (fun t => getPotentialEnergy m d (displaced x v t)) 0 (- (power f' v - power f v)).
Proof.
  intros m d x f S RG NI Fx Ff. set (N := length (positions d)) in *.
  destruct (addForce_spec m d x f N (proj1 S) eq_refl (proj1 Fx) Ff) as (f' & E & Ff' & _).
  exists f'. split; [exact E|]. split; [exact Ff'|]. intros v Fv.
  apply (is_derive_ext (fun t => Rsum (map (fun row => Rsum (map (fun g => jacobian_determinant g * weight g *
     strain_energy_density m (det (gradient (displaced x v t) row g)) (cauchy_green (gradient (displaced x v t) row g))) (quad d row))) (connectivity d)))).
  { intros t. unfold getPotentialEnergy. rewrite (proj1 (displaced_field N x v t Fx Fv)). fold N. rewrite Nat.eqb_refl. cbn [negb].
    symmetry. apply Rsum_ext. intros row Hr. destruct (solid_row d row S Hr) as [Hl Hi].
    apply (element_energy_spec m d (displaced x v t) row N).
    - apply S. - apply S. - apply displaced_field; assumption. - exact Hl. - exact Hi.
    - exact (proj1 (Forall_forall _ _) RG row Hr). }
  rewrite (power_weighted N f' v Ff' Fv), (power_weighted N f v Ff Fv), (weighted_forces m d x f f' N (entries v) (proj1 S) eq_refl (proj1 Fx) Ff E).
  match goal with |- is_derive _ _ ?l => replace l with (Rsum (map (fun row => Rsum (map (fun g => jacobian_determinant g * weight g *
     double_dot (stress_power m (gradient x row g)) (gradient v row g)) (quad d row))) (connectivity d))) end.
  - apply is_derive_sum. intros row Hr. apply is_derive_sum. intros g Hg.
    apply (is_derive_scal (fun t => strain_energy_density m (det (gradient (displaced x v t) row g)) (cauchy_green (gradient (displaced x v t) row g))) 0
      (jacobian_determinant g * weight g)).
    assert (G0 := gradient_displaced_0 N x v row g Fx Fv).
    pose proof (C52_first_piola_kirchhoff m (fun t => gradient (displaced x v t) row g) (gradient v row g)) as D. cbv beta in D. rewrite G0 in D. apply D.
    + intros t. apply gradient_matrix.
    + exact (gradient_derive N x v row g Fx Fv).
    + unfold admissible. destruct (kind_of m) eqn:K; [|exact I]. apply (quad_positive d x row g S (NI eq_refl) Hr Hg).
  - match goal with |- ?a = - (?b - ?c - ?b) => transitivity c; [|ring] end. apply Rsum_ext. intros row Hr.
    destruct (solid_row d row S Hr) as [Hl _]. rewrite <- element_work by exact Hl. rewrite Hl. reflexivity.
Qed.
Print Assumptions C55_forces_are_minus_energy_gradient_partial.

(** ** C56 *)

Lemma Rsum_if (A : Type) (b : bool) (f : A -> R) l : (if b then Rsum (map f l) else 0) = Rsum (map (fun a => if b then f a else 0) l).
Proof. destruct b; [reflexivity|]. symmetry. apply Rsum_zero. reflexivity. Qed.

(** Adding to a vector of forces, for the displacement increment v, k times the derivative of the forces in the direction v. *)
Theorem C56_force_increment_partial :
  forall m d x v f k DF, solid d -> distinct_nodes d -> regular d -> not_inverted d x ->
    field (length (positions d)) 3 x -> field (length (positions d)) 3 v -> field (length (positions d)) 3 f ->
    length DF = (length (positions d) * 3)%nat ->
    exists (g : R -> list (list R)) DF',
      (forall t, addForce m d (displaced x v t) f = Some (g t)) /\
      addDForce (assemble_stiffness m d x) (length (positions d) * 3) k (concat v) DF = Some DF' /\
      length DF' = length DF /\
      forall node c, (node < length (positions d))%nat -> (c < 3)%nat -> exists D,
        is_derive (fun t => nth c (nth node (g t) []) 0) 0 D /\
        nth (node * 3 + c) DF' 0 = nth (node * 3 + c) DF 0 + k * D.
Proof.
  intros m d x v f k DF S ND RG NI Fx Fv Ff LD. set (N := length (positions d)) in *.
  set (g := fun t => match addForce m d (displaced x v t) f with Some r => r | None => [] end).
  assert (A : forall t, addForce m d (displaced x v t) f = Some (g t) /\ forall p c, (c < 3)%nat -> entries (g t) p c = entries f p c -
      Rsum (map (fun row => Rsum (map (fun a => if Nat.eqb (nth a row 0%nat) p then entries (element_forces m (gather (displaced x v t) row) (quad d row)) a c else 0)
                                      (seq 0 (NumberOfNodes (kind d))))) (connectivity d))).
  { intros t. destruct (addForce_spec m d (displaced x v t) f N (proj1 S) eq_refl (proj1 (displaced_field N x v t Fx Fv)) Ff) as (f' & E & _ & P).
    unfold g. rewrite E. split; [reflexivity|exact P]. }
  destruct (addDForce_spec (assemble_stiffness m d x) (N * 3) k (concat v) DF (assemble_inside m d x N (proj1 S) eq_refl) LD) as (DF' & E & L & P).
  exists g, DF'. split; [intros t; apply A|]. split; [exact E|]. split; [congruence|]. intros p c Hp Hc.
  exists (- Rsum (map (fun row => Rsum (map (fun a => if Nat.eqb (nth a row 0%nat) p then
     Rsum (map (fun b => sum3 (fun k => entries (block m d x row a b) c k * entries v (nth b row 0%nat) k)) (seq 0 (length row))) else 0)
     (seq 0 (length row)))) (connectivity d))). split.
  - apply (is_derive_ext (fun t => entries f p c -
      Rsum (map (fun row => Rsum (map (fun a => if Nat.eqb (nth a row 0%nat) p then entries (element_forces m (gather (displaced x v t) row) (quad d row)) a c else 0)
                                      (seq 0 (NumberOfNodes (kind d))))) (connectivity d)))).
    { intros t. symmetry. exact (proj2 (A t) p c Hc). }
    evar_last.
    + apply (is_derive_minus (fun _ => entries f p c)); [apply @is_derive_const|].
      apply (is_derive_sum _ (connectivity d)). intros row Hr. destruct (solid_row d row S Hr) as [Hl _]. rewrite <- Hl.
      apply (is_derive_sum _ (seq 0 (length row)) (fun a t => if Nat.eqb (nth a row 0%nat) p then entries (element_forces m (gather (displaced x v t) row) (quad d row)) a c else 0)).
      intros a Ha. apply in_seq in Ha. instantiate (1 := fun a => if Nat.eqb (nth a row 0%nat) p then
        Rsum (map (fun b => sum3 (fun k => entries (block m d x row a b) c k * entries v (nth b row 0%nat) k)) (seq 0 (length row))) else 0).
      cbv beta. destruct (Nat.eqb (nth a row 0%nat) p); [|apply @is_derive_const].
      apply (is_derive_ext (fun t => Rsum (map (fun g => entries (gauss_forces m (gather (displaced x v t) row) g) a c) (quad d row)))).
      { intros t. destruct (element_forces_spec m (gather (displaced x v t) row) (quad d row) (NumberOfNodes (kind d))) as (_ & _ & Q).
        - unfold gather. rewrite map_length. exact Hl. - apply quad_sound. - symmetry. apply Q. }
      evar_last.
      * apply (is_derive_sum _ (quad d row)). intros q Hq. apply (gauss_force_derive m N x v row q Fx Fv).
        -- rewrite Hl. exact (proj1 (Forall_forall _ _) (quad_sound d row) q Hq).
        -- exact (quad_positive d x row q S NI Hr Hq).
        -- lia.
        -- exact Hc.
      * rewrite (Rsum_swap _ _ (fun q b => sum3 (fun k => entries (gauss_block m (gather x row) a b q) c k * entries v (nth b row 0%nat) k))).
        apply Rsum_ext. intros b Hb. apply in_seq in Hb. unfold sum3. rewrite !Rsum_plus, !Rsum_scal_r.
        rewrite !(block_spec m d x row a b) by (first [exact Hl | lia]). reflexivity.
    + match goal with |- minus ?a ?b = - ?c => transitivity (0 - b); [reflexivity|]; transitivity (0 - c); [|ring]; apply f_equal end.
      apply Rsum_ext. intros row Hr. reflexivity.
  - rewrite P. rewrite (operator_row m d x v N p c (proj1 S) ND Fv Hc). ring.
Qed.
Print Assumptions C56_force_increment_partial.

(** The matrix added to the global system is symmetric, lies in the block that starts at the offset, is -kFact times the
    matrix K() given to the user, and its product with an increment is what addDForce adds. *)
Theorem C56_matrix :
  forall m d x k offset, solid d ->
    let n := (length (positions d) * 3)%nat in
    let added := coeff (addKToMatrix (assemble_stiffness m d x) n k offset) in
    (forall i j, added (offset + i)%nat (offset + j)%nat = added (offset + j)%nat (offset + i)%nat) /\
    (forall i j, (i < offset \/ offset + n <= i \/ j < offset \/ offset + n <= j)%nat ->
       stored (addKToMatrix (assemble_stiffness m d x) n k offset) i j = false) /\
    (forall i j, added (offset + i)%nat (offset + j)%nat = - k * coeff (K (assemble_stiffness m d x) n) i j) /\
    (forall DX DF, length DF = n -> exists DF', addDForce (assemble_stiffness m d x) n k DX DF = Some DF' /\
       forall i, nth i DF' 0 = nth i DF 0 + Rsum (map (fun j => added (offset + i)%nat (offset + j)%nat * nth j DX 0) (seq 0 n))).
Proof.
  intros m d x k off S n added. set (ts := assemble_stiffness m d x) in *.
  assert (IN : Forall (inside n) ts) by (apply assemble_inside; [apply S|reflexivity]).
  assert (E : forall i j, added (off + i)%nat (off + j)%nat = - k * tsum ts (mirror (unit_at i j))) by (intros; apply addK_coeff; exact IN).
  split; [|split; [|split]].
  - intros i j. rewrite !E. f_equal. apply Rsum_ext. intros t _. f_equal. unfold mirror, unit_at.
    destruct (Nat.eqb_spec (row_of t) (col_of t)) as [-> |Hn].
    + rewrite andb_comm. reflexivity.
    + rewrite (andb_comm (Nat.eqb (row_of t) i)), (andb_comm (Nat.eqb (col_of t) i)). ring.
  - intros i j H. apply addK_outside. lia.
  - intros i j. rewrite E, K_coeff by exact IN. reflexivity.
  - intros DX DF L. destruct (addDForce_spec ts n k DX DF IN L) as (DF' & A & _ & P). exists DF'. split; [exact A|].
    intros i. rewrite P. unfold Rminus. f_equal.
    rewrite (Rsum_ext _ _ (fun j => - k * (tsum ts (mirror (unit_at i j)) * nth j DX 0))) by (intros j _; rewrite E; ring).
    rewrite Rsum_scal_l. rewrite Ropp_mult_distr_l. f_equal. unfold tsum.
    rewrite (Rsum_ext _ _ (fun j => Rsum (map (fun t => value_of t * (mirror (unit_at i j) (row_of t) (col_of t) * nth j DX 0)) ts)))
      by (intros j _; rewrite <- Rsum_scal_r; apply Rsum_ext; intros; ring).
    rewrite (Rsum_swap _ _ (fun j t => value_of t * (mirror (unit_at i j) (row_of t) (col_of t) * nth j DX 0))).
    apply Rsum_ext. intros t Ht. destruct (proj1 (Forall_forall _ _) IN t Ht) as [Hr Hc]. rewrite Rsum_scal_l. f_equal.
    assert (DL : forall a b, (b < n)%nat -> Rsum (map (fun j => unit_at i j a b * nth j DX 0) (seq 0 n)) = if Nat.eqb a i then nth b DX 0 else 0).
    { intros a b Hb. rewrite (Rsum_ext _ _ (fun j => if Nat.eqb b j then (if Nat.eqb a i then nth j DX 0 else 0) else 0)).
      - apply (Rsum_delta (fun j => if Nat.eqb a i then nth j DX 0 else 0)). exact Hb.
      - intros j _. unfold unit_at. destruct (Nat.eqb a i), (Nat.eqb b j); cbn [andb]; ring. }
    unfold mirror. destruct (Nat.eqb_spec (row_of t) (col_of t)) as [Heq|Hn].
    + rewrite DL by exact Hr. reflexivity.
    + rewrite (Rsum_ext _ _ (fun j => unit_at i j (row_of t) (col_of t) * nth j DX 0 + unit_at i j (col_of t) (row_of t) * nth j DX 0)) by (intros; ring).
      rewrite Rsum_plus, !DL by assumption. reflexivity.
Qed.
Print Assumptions C56_matrix.

(** ** C57 *)

Lemma skew_power m F (w : nat -> nat -> R) : matrix3 F -> (forall i j, (i < 3)%nat -> (j < 3)%nat -> w i j = - w j i) ->
  double_dot (stress_power m F) (of_entries (fun i j => sum3 (fun k => w i k * entries F k j))) = 0.
Proof.
  intros MF W. assert (SY := stress_symmetric m (det F) (cauchy_green F) (cauchy_green_matrix F) (cauchy_green_symmetric F)).
  unfold double_dot, stress_power, product. set (S := PK2_stress m (det F) (cauchy_green F)) in *.
  assert (S01 := SY 0%nat 1%nat ltac:(lia) ltac:(lia)). assert (S02 := SY 0%nat 2%nat ltac:(lia) ltac:(lia)). assert (S12 := SY 1%nat 2%nat ltac:(lia) ltac:(lia)).
  unfold sum3 at 1 2 3 4. rewrite !entries_of_entries by lia. unfold sum3.
  rewrite <- S01, <- S02, <- S12.
  rewrite (W 1%nat 0%nat), (W 2%nat 0%nat), (W 2%nat 1%nat) by lia.
  assert (W0 : w 0%nat 0%nat = 0) by (specialize (W 0%nat 0%nat); assert (0 < 3)%nat by lia; specialize (W H H); lra).
  assert (W1 : w 1%nat 1%nat = 0) by (specialize (W 1%nat 1%nat); assert (1 < 3)%nat by lia; specialize (W H H); lra).
  assert (W2 : w 2%nat 2%nat = 0) by (specialize (W 2%nat 2%nat); assert (2 < 3)%nat by lia; specialize (W H H); lra).
  rewrite W0, W1, W2. ring.
Qed.

(** The velocity e_k ^ p. *)
Definition spin (k i j : nat) : R :=
  match k, i, j with
  | 0, 1, 2 => (-1)%R | 0, 2, 1 => 1%R
  | 1, 0, 2 => 1%R | 1, 2, 0 => (-1)%R
  | 2, 0, 1 => (-1)%R | 2, 1, 0 => 1%R
  | _, _, _ => 0%R end%nat.
Lemma spin_skew k i j : (k < 3)%nat -> (i < 3)%nat -> (j < 3)%nat -> spin k i j = - spin k j i.
Proof. intros. destruct k as [|[|[|]]], i as [|[|[|]]], j as [|[|[|]]]; try lia; cbn [spin]; ring. Qed.
Definition rotating (k : nat) (x : list (list R)) : list (list R) :=
  map (fun p => map (fun i => sum3 (fun j => spin k i j * nth j p 0)) (seq 0 3)) x.
Lemma rotating_field k N x : field N 3 x -> field N 3 (rotating k x).
Proof.
  intros [L _]. split; [unfold rotating; rewrite map_length; exact L|]. apply Forall_forall. intros r Hr. apply in_map_iff in Hr.
  destruct Hr as (p & <- & _). rewrite map_length. reflexivity.
Qed.
Lemma rotating_entries k x p i : (i < 3)%nat -> entries (rotating k x) p i = sum3 (fun j => spin k i j * entries x p j).
Proof.
  intros Hi. unfold entries, rotating. destruct (Nat.ltb_spec p (length x)) as [H|H].
  - rewrite (nth_indep _ [] (map (fun i => sum3 (fun j => spin k i j * nth j [] 0)) (seq 0 3))) by (rewrite map_length; exact H).
    rewrite (map_nth (fun p => map (fun i => sum3 (fun j => spin k i j * nth j p 0)) (seq 0 3))).
    destruct i as [|[|[|]]]; try lia; reflexivity.
  - rewrite !(nth_overflow _ []) by (try rewrite map_length; exact H). unfold sum3. destruct i as [|[|[|]]], k as [|[|[|]]]; try lia; cbn; ring.
Qed.
Lemma gradient_sum x row g i j : (i < 3)%nat -> (j < 3)%nat ->
  entries (gradient x row g) i j = Rsum (map (fun a => entries x (nth a row 0%nat) i * entries (dN_dx g) a j) (seq 0 (length row))).
Proof.
  intros Hi Hj. rewrite gradient_entries by assumption. unfold grad. apply Rsum_ext. intros a Ha. apply in_seq in Ha.
  rewrite gather_entries by lia. reflexivity.
Qed.
Lemma rotating_gradient k x row g i j : (i < 3)%nat -> (j < 3)%nat ->
  entries (gradient (rotating k x) row g) i j = sum3 (fun l => spin k i l * entries (gradient x row g) l j).
Proof.
  intros Hi Hj. rewrite gradient_sum by assumption.
  rewrite (sum3_ext _ (fun l => spin k i l * Rsum (map (fun a => entries x (nth a row 0%nat) l * entries (dN_dx g) a j) (seq 0 (length row)))))
    by (intros l Hl; rewrite gradient_sum by assumption; reflexivity).
  unfold sum3. rewrite <- !Rsum_scal_l, <- !Rsum_plus. apply Rsum_ext. intros a _. rewrite rotating_entries by exact Hi. unfold sum3. ring.
Qed.
Lemma rotating_gradient_matrix k x row g :
  gradient (rotating k x) row g = of_entries (fun i j => sum3 (fun l => spin k i l * entries (gradient x row g) l j)).
Proof.
  unfold gradient at 1. unfold of_entries. apply map_ext_in. intros i Hi. apply in_seq in Hi. apply map_ext_in. intros j Hj. apply in_seq in Hj.
  rewrite <- rotating_gradient by lia. rewrite gradient_entries by lia. reflexivity.
Qed.

Lemma moment_power N x f k : field N 3 x -> field N 3 f -> (k < 3)%nat -> nth k (moment x f) 0 = power f (rotating k x).
Proof.
  intros Fx Ff Hk. rewrite (power_weighted N f _ Ff (rotating_field k N x Fx)). unfold weighted, moment.
  rewrite (nth_map_seq _ 3) by exact Hk. destruct Fx as [Lx _], Ff as [Lf _].
  rewrite (map2_seq_gen _ _ _ _ [] [] N x f Lx Lf). apply Rsum_ext. intros p _.
  rewrite (sum3_ext _ (fun c => entries f p c * sum3 (fun j => spin k c j * entries x p j))) by (intros c Hc; rewrite rotating_entries by exact Hc; reflexivity).
  unfold sum3, entries, vcross. destruct k as [|[|[|]]]; try lia; cbn [spin nth Nat.add]; ring.
Qed.

Definition unit_velocity (k N : nat) : list (list R) := repeat (map (fun c => if Nat.eqb c k then 1 else 0) (seq 0 3)) N.
Lemma unit_velocity_field k N : field N 3 (unit_velocity k N).
Proof. split; [apply repeat_length|]. apply Forall_forall. intros r Hr. apply repeat_spec in Hr. subst r. rewrite map_length. reflexivity. Qed.
Lemma unit_velocity_entries k N p c : (p < N)%nat -> (c < 3)%nat -> entries (unit_velocity k N) p c = if Nat.eqb c k then 1 else 0.
Proof.
  intros Hp Hc. unfold entries, unit_velocity. rewrite (nth_indep _ [] (map (fun c => if Nat.eqb c k then 1 else 0) (seq 0 3))) by (rewrite repeat_length; exact Hp).
  rewrite nth_repeat. rewrite (nth_map_seq _ 3) by exact Hc. reflexivity.
Qed.
Lemma map_rows (A : Type) (h : list R -> A) f : map h f = map (fun p => h (nth p f [])) (seq 0 (length f)).
Proof. induction f as [|r f IH]; [reflexivity|]. cbn [length seq map nth]. f_equal. rewrite <- seq_shift, map_map. exact IH. Qed.
Lemma total_power N f k : field N 3 f -> (k < 3)%nat -> nth k (total 3 f) 0 = power f (unit_velocity k N).
Proof.
  intros Ff Hk. rewrite (power_weighted N f _ Ff (unit_velocity_field k N)). unfold weighted, total. rewrite (nth_map_seq _ 3) by exact Hk.
  destruct Ff as [Lf _]. rewrite <- Lf. rewrite (map_rows _ (fun v => nth (0 + k) v 0)). apply Rsum_ext. intros p Hp. apply in_seq in Hp.
  rewrite (sum3_ext _ (fun c => entries f p c * if Nat.eqb c k then 1 else 0)) by (intros c Hc; rewrite unit_velocity_entries by lia; reflexivity).
  unfold sum3, entries. destruct k as [|[|[|]]]; try lia; cbn [Nat.eqb Nat.add]; ring.
Qed.

(** The forces added have no resultant and no moment about the origin (hence about any point). *)
Theorem C57_self_balanced :
  forall m d x f, solid d -> regular d -> (kind_of m = NeoHookean -> not_inverted d x) ->
    field (length (positions d)) 3 x -> field (length (positions d)) 3 f ->
    exists f', addForce m d x f = Some f' /\ total 3 f' = total 3 f /\ moment x f' = moment x f.
Proof.
  intros m d x f S _ _ Fx Ff. set (N := length (positions d)) in *.
  destruct (addForce_spec m d x f N (proj1 S) eq_refl (proj1 Fx) Ff) as (f' & E & Ff' & _).
  exists f'. split; [exact E|].
  assert (P : forall v, field N 3 v -> (forall row g, In row (connectivity d) -> In g (quad d row) -> double_dot (stress_power m (gradient x row g)) (gradient v row g) = 0) ->
     power f' v = power f v).
  { intros v Fv Z. rewrite (power_weighted N f' v Ff' Fv), (power_weighted N f v Ff Fv), (weighted_forces m d x f f' N (entries v) (proj1 S) eq_refl (proj1 Fx) Ff E).
    rewrite (Rsum_zero _ _ (connectivity d)); [ring|]. intros row Hr. destruct (solid_row d row S Hr) as [Hl _].
    pose proof (element_work m d x row v Hl) as W. rewrite Hl in W. rewrite W.
    apply Rsum_zero. intros g Hg. rewrite (Z row g Hr Hg). ring. }
  assert (V3 : forall a b : list R, length a = 3%nat -> length b = 3%nat -> (forall k, (k < 3)%nat -> nth k a 0 = nth k b 0) -> a = b).
  { intros a b La Lb H. apply (nth_ext a b 0 0); [congruence|]. intros k Hk. apply H. lia. }
  split.
  - apply V3; try (unfold total; rewrite map_length; reflexivity). intros k Hk. rewrite !(total_power N) by assumption. apply P; [apply unit_velocity_field|].
    intros row g Hr Hg. destruct (solid_row d row S Hr) as [Hl Hi]. destruct (quad_in d row g Hg) as (q & Hq & ->).
    assert (G0 : forall i j, (i < 3)%nat -> (j < 3)%nat -> entries (gradient (unit_velocity k N) row (the_node d row q)) i j = 0).
    { intros i j Hi' Hj. rewrite gradient_sum by assumption.
      rewrite (Rsum_ext _ _ (fun a => (if Nat.eqb i k then 1 else 0) * entries (dN_dx (the_node d row q)) a j)).
      - rewrite Rsum_scal_l, Hl. rewrite (the_node_sum d row q) by (first [apply S | exact Hl | assumption]). ring.
      - intros a Ha. apply in_seq in Ha. rewrite unit_velocity_entries; [reflexivity| |exact Hi'].
        apply (proj1 (Forall_forall _ _) Hi), nth_In. lia. }
    unfold double_dot, sum3. rewrite !G0 by lia. ring.
  - apply V3; try (unfold moment; rewrite map_length; reflexivity). intros k Hk. rewrite !(moment_power N x) by assumption.
    apply P; [apply rotating_field; exact Fx|]. intros row g Hr Hg. rewrite rotating_gradient_matrix.
    apply skew_power; [apply gradient_matrix|]. intros. apply spin_skew; assumption.
Qed.
Print Assumptions C57_self_balanced.

(** ... about any point. *)
Theorem C57_any_point :
  forall m d x f o, solid d -> regular d -> (kind_of m = NeoHookean -> not_inverted d x) ->
    field (length (positions d)) 3 x -> field (length (positions d)) 3 f -> length o = 3%nat ->
    exists f', addForce m d x f = Some f' /\ moment (map (fun p => vminus p o) x) f' = moment (map (fun p => vminus p o) x) f.
Proof.
  intros m d x f o S RG NI Fx Ff Lo. set (N := length (positions d)) in *.
  destruct (addForce_spec m d x f N (proj1 S) eq_refl (proj1 Fx) Ff) as (f1 & E1 & Ff1 & _).
  destruct (C57_self_balanced m d x f S RG NI Fx Ff) as (f' & E & T & M). rewrite E1 in E. injection E as <-.
  exists f1. split; [exact E1|].
  assert (P : forall h, field N 3 h -> moment (map (fun p => vminus p o) x) h = vminus (moment x h) (vcross o (total 3 h))).
  { intros h [Lh Fh]. destruct Fx as [Lx Fx]. rewrite <- Lh in Lx. clear - Lx Fx Fh Lo. revert h Lx Fh. induction x as [|p x IH]; intros h Lx Fh.
    - destruct h; [|discriminate]. destruct o as [|o0 [|o1 [|o2 [|]]]]; try discriminate. unfold moment, total, vcross, vminus. cbn. repeat f_equal; ring.
    - destruct h as [|q h]; [discriminate|]. inversion_clear Fx as [|? ? Lp Fx']. inversion_clear Fh as [|? ? Lq Fh'].
      specialize (IH Fx' h ltac:(simpl in Lx; lia) Fh'). clear - IH Lp Lq Lo.
      destruct o as [|o0 [|o1 [|o2 [|]]]]; try discriminate. destruct p as [|p0 [|p1 [|p2 [|]]]]; try discriminate. destruct q as [|q0 [|q1 [|q2 [|]]]]; try discriminate.
      unfold moment, total, vcross, vminus in IH |- *. cbn in IH |- *. fold Rsum in *. change (fold_right Rplus 0) with Rsum in *. injection IH as I0 I1 I2. rewrite I0, I1, I2. f_equal; [ring|]. f_equal; [ring|]. f_equal. ring. }
  rewrite !P by assumption. rewrite T, M. reflexivity.
Qed.
Print Assumptions C57_any_point.

(** ** C58 *)

Lemma interleaving_permutation threads order : interleaving threads order -> Permutation (concat threads) order.
Proof.
  induction 1 as [threads H|before id t after order H IH].
  - induction H as [|t ts -> H IH]; [constructor|exact IH].
  - rewrite concat_app in *. cbn [concat app] in *. rewrite <- IH.
    symmetry. apply Permutation_middle.
Qed.

(** Each element is handled once, by some thread. *)
Theorem C58_schedule_independent :
  forall m d x threads order, Permutation (concat threads) (seq 0 (length (connectivity d))) -> interleaving threads order ->
    let ts := assemble_in_order m d x order in
    let ts0 := assemble_stiffness m d x in
    (forall i j, coeff ts i j = coeff ts0 i j) /\
    (forall i j, stored ts i j = stored ts0 i j) /\
    (forall n, K ts n = K ts0 n) /\
    (forall n k DX DF, addDForce ts n k DX DF = addDForce ts0 n k DX DF) /\
    (forall n k offset, addKToMatrix ts n k offset = addKToMatrix ts0 n k offset).
Proof.
  intros m d x threads order P I ts ts0.
  assert (PT : Permutation ts ts0).
  { unfold ts, ts0, assemble_stiffness, assemble_in_order. apply Permutation_flat_map. rewrite <- P. symmetry. apply interleaving_permutation, I. }
  assert (C : forall i j, coeff ts i j = coeff ts0 i j) by (intros; apply coeff_permutation, PT).
  assert (T : forall i j, stored ts i j = stored ts0 i j).
  { intros i j. unfold stored. apply eq_true_iff_eq. rewrite !existsb_exists. split; intros (t & Ht & H); exists t; split; auto.
    - exact (Permutation_in t PT Ht). - exact (Permutation_in t (Permutation_sym PT) Ht). }
  assert (SC : forall n, stored_coefficients ts n = stored_coefficients ts0 n).
  { intros n. unfold stored_coefficients. apply flat_map_ext. intros j. f_equal. unfold inner_vector.
    rewrite (filter_ext (fun i => stored ts i j) (fun i => stored ts0 i j)) by (intros; apply T). apply map_ext. intros i. rewrite C. reflexivity. }
  split; [exact C|]. split; [exact T|]. split; [|split].
  - intros. unfold K. rewrite SC. reflexivity.
  - intros. unfold addDForce. rewrite SC. reflexivity.
  - intros. unfold addKToMatrix. rewrite SC. reflexivity.
Qed.
Print Assumptions C58_schedule_independent.

(** Two threads and three elements. *)
Example C58_example : interleaving [[0; 1]; [2]]%nat [0; 2; 1]%nat.
Proof.
  apply (one_step [] 0%nat [1%nat] [[2%nat]]). apply (one_step [[1%nat]] 2%nat [] []). apply (one_step [] 1%nat [] [[]]).
  apply all_done. repeat constructor.
Qed.

(** ** C69 *)

Lemma after_app d c l1 l2 : after d c (l1 ++ l2) = after d (after d c l1) l2.
Proof. apply fold_left_app. Qed.

Lemma up_to_date_kept d calls : Forall not_addForce calls -> forall c, K_is_up_to_date c = true ->
  K_is_up_to_date (after d c calls) = true /\ p_K (after d c calls) = p_K c.
Proof.
  induction 1 as [|a calls Ha H IH]; intros c Hc; [split; [exact Hc|reflexivity]|].
  change (after d c (a :: calls)) with (after d (fst (step d c a)) calls).
  assert (Q : K_is_up_to_date (fst (step d c a)) = true /\ p_K (fst (step d c a)) = p_K c).
  { destruct a; [| |contradiction| | |]; cbn [step fst K_is_up_to_date p_K]; try rewrite Hc; split; auto. }
  destruct Q as [Q1 Q2]. destruct (IH _ Q1) as [I1 I2]. split; [exact I1|congruence].
Qed.

Lemma no_stiffness_kept d calls : Forall no_stiffness calls -> forall c,
  K_is_up_to_date (after d c calls) = K_is_up_to_date c /\ material_law (after d c calls) = material_law c.
Proof.
  induction 1 as [|a calls Ha H IH]; intros c; [split; reflexivity|].
  change (after d c (a :: calls)) with (after d (fst (step d c a)) calls). destruct (IH (fst (step d c a))) as [I1 I2]. rewrite I1, I2.
  destruct a; try contradiction; split; reflexivity.
Qed.

(** The stiffness used by addDForce and addKToMatrix is the one of the first of these calls after the last computation of
    the forces, whatever the history: the positions x and the parameters of the material are those at this first call. *)
Theorem C69_linearisation_point :
  forall d c f moves first queries,
    length f = length (current_x c) -> current_x c <> [] -> connectivity d <> [] ->
    Forall no_stiffness moves ->
    (match first with AddDForce _ _ _ | AddKToMatrix _ _ => True | _ => False end) ->
    Forall not_addForce queries ->
    let c1 := after d c (AddForce f :: moves) in
    let ts := assemble_stiffness (before_update (material_law c) (young_modulus c1) (poisson_ratio c1)) d (current_x c1) in
    let c2 := after d c1 (first :: queries) in
    snd (step d c1 first) = match first with
                            | AddDForce k DX DF => DForces (addDForce ts (dofs c1) k DX DF)
                            | AddKToMatrix k o => Added (addKToMatrix ts (dofs c1) k o)
                            | _ => Nothing
                            end /\
    (forall k DX DF, snd (step d c2 (AddDForce k DX DF)) = DForces (addDForce ts (dofs c2) k DX DF)) /\
    (forall k o, snd (step d c2 (AddKToMatrix k o)) = Added (addKToMatrix ts (dofs c2) k o)).
Proof.
  intros d c f moves first queries Lf Nx Nc Hm Hf Hq c1 ts c2.
  assert (U1 : K_is_up_to_date c1 = false /\ material_law c1 = material_law c).
  { unfold c1. change (after d c (AddForce f :: moves)) with (after d (fst (step d c (AddForce f))) moves).
    destruct (no_stiffness_kept d moves Hm (fst (step d c (AddForce f)))) as [U L]. rewrite U, L. cbn [step fst set_K K_is_up_to_date update_material current_x].
    rewrite Lf, Nat.eqb_refl. destruct (current_x c); [contradiction|]. destruct (connectivity d); [contradiction|]. split; reflexivity. }
  destruct U1 as [U1 L1].
  assert (R1 : reassemble d c1 = fst (step d c1 first)) by (destruct first; try contradiction; cbn [step fst]; rewrite U1; reflexivity).
  assert (P1 : p_K (reassemble d c1) = ts) by (unfold ts; rewrite <- L1; reflexivity).
  split; [|].
  - destruct first; try contradiction; cbn [step snd]; rewrite U1, P1; reflexivity.
  - destruct (up_to_date_kept d queries Hq (fst (step d c1 first))) as [U2 P2].
    { rewrite <- R1. reflexivity. }
    change (after d (fst (step d c1 first)) queries) with c2 in U2, P2. rewrite <- R1, P1 in P2.
    split; intros; cbn [step snd]; rewrite U2, P2; reflexivity.
Qed.
Print Assumptions C69_linearisation_point.

(** The forces are always those of the current positions and parameters. *)
Theorem C69_forces :
  forall d c calls f,
    let c1 := after d c calls in
    snd (step d c1 (AddForce f)) = Forces (addForce (before_update (material_law c) (young_modulus c1) (poisson_ratio c1)) d (current_x c1) f).
Proof.
  intros d c calls f c1. assert (L : material_law c1 = material_law c).
  { unfold c1. clear. revert c. induction calls as [|a calls IH]; intros c; [reflexivity|].
    change (after d c (a :: calls)) with (after d (fst (step d c a)) calls). rewrite IH.
    destruct a; cbn [step fst]; try reflexivity; destruct (K_is_up_to_date c); reflexivity. }
  cbn [step snd update_material parameters current_x]. rewrite L. reflexivity.
Qed.
Print Assumptions C69_forces.

(** ** A concrete mesh: the unit tetrahedron, pulled along x and sheared *)

Definition unit_tetrahedron : domain :=
  {| dim := 3; kind := Tetrahedron_Linear; positions := [[0; 0; 0]; [1; 0; 0]; [0; 1; 0]; [0; 0; 1]]; connectivity := [[0; 1; 2; 3]%nat] |}.
Definition pulled : list (list R) := [[0; 0; 0]; [2; 0; 0]; [1; 1; 0]; [0; 0; 1]].

Lemma unit_tetrahedron_solid : solid unit_tetrahedron.
Proof. split; [|split]; [repeat constructor; cbn; lia|reflexivity|split; [reflexivity|repeat constructor]]. Qed.
Lemma unit_tetrahedron_distinct : distinct_nodes unit_tetrahedron.
Proof. constructor; [|constructor]. repeat constructor; cbn; intuition discriminate. Qed.
Lemma local_volume_unit g : In g (gauss_nodes Tetrahedron_Linear) -> local_volume unit_tetrahedron [0; 1; 2; 3]%nat (fst g) = 1.
Proof.
  intros H. unfold gauss_nodes in H. cbn [In] in H. destruct H as [<- |[]].
  unfold local_volume, unit_tetrahedron, nodes_of_element. cbn. ring.
Qed.
Lemma local_volume_pulled g : In g (gauss_nodes Tetrahedron_Linear) -> local_volume (moved unit_tetrahedron pulled) [0; 1; 2; 3]%nat (fst g) = 2.
Proof.
  intros H. unfold gauss_nodes in H. cbn [In] in H. destruct H as [<- |[]].
  unfold local_volume, unit_tetrahedron, moved, pulled, nodes_of_element. cbn. ring.
Qed.
Lemma unit_tetrahedron_regular : regular unit_tetrahedron.
Proof. constructor; [|constructor]. apply Forall_forall. intros g H. rewrite (local_volume_unit g H). lra. Qed.
Lemma unit_tetrahedron_not_inverted : not_inverted unit_tetrahedron pulled.
Proof. constructor; [|constructor]. apply Forall_forall. intros g H. rewrite (local_volume_unit g H), (local_volume_pulled g H). lra. Qed.
Lemma pulled_field : field (length (positions unit_tetrahedron)) 3 pulled.
Proof. split; [reflexivity|repeat constructor]. Qed.

Example C55_example : exists f', addForce (before_update NeoHookean 1000 (/ 4)) unit_tetrahedron pulled pulled = Some f' /\
  forall v, field 4 3 v -> is_derive (fun t => getPotentialEnergy (before_update NeoHookean 1000 (/ 4)) unit_tetrahedron (displaced pulled v t)) 0
    (- (power f' v - power pulled v)).
Proof.
  destruct (C55_forces_are_minus_energy_gradient_partial (before_update NeoHookean 1000 (/ 4)) unit_tetrahedron pulled pulled
    unit_tetrahedron_solid unit_tetrahedron_regular (fun _ => unit_tetrahedron_not_inverted) pulled_field pulled_field) as (f' & E & _ & D).
  exists f'. split; [exact E|exact D].
Qed.
Example C56_example : exists g DF',
  (forall t, addForce (before_update NeoHookean 1000 (/ 4)) unit_tetrahedron (displaced pulled pulled t) pulled = Some (g t)) /\
  addDForce (assemble_stiffness (before_update NeoHookean 1000 (/ 4)) unit_tetrahedron pulled) 12 (/ 2) (concat pulled) (concat pulled) = Some DF' /\
  exists D, is_derive (fun t => nth 0 (nth 1 (g t) []) 0) 0 D /\ nth 3 DF' 0 = 2 + / 2 * D.
Proof.
  destruct (C56_force_increment_partial (before_update NeoHookean 1000 (/ 4)) unit_tetrahedron pulled pulled pulled (/ 2) (concat pulled)
    unit_tetrahedron_solid unit_tetrahedron_distinct unit_tetrahedron_regular unit_tetrahedron_not_inverted pulled_field pulled_field pulled_field eq_refl)
    as (g & DF' & A & B' & _ & D).
  exists g, DF'. split; [exact A|]. split; [exact B'|]. exact (D 1%nat 0%nat ltac:(cbn; lia) ltac:(lia)).
Qed.

(** ** Refuted: the energy reported after a change of the parameters *)

(** The potential energy does not see new parameters until the next computation of the forces or of the stiffness, even
    though the parameters used were right before the change. *)
Theorem C55_energy_after_parameter_change_refuted :
  exists d c E nu, solid d /\ regular d /\ not_inverted d (current_x c) /\
    parameters c = before_update (material_law c) (young_modulus c) (poisson_ratio c) /\
    let c1 := fst (step d c (SetParameters E nu)) in
    snd (step d c1 PotentialEnergy) <> Energy (getPotentialEnergy (before_update (material_law c) E nu) d (current_x c1)).
Proof.
  exists unit_tetrahedron,
    {| current_x := pulled; material_law := SaintVenantKirchhoff; young_modulus := 1; poisson_ratio := 0;
       parameters := before_update SaintVenantKirchhoff 1 0; p_K := []; K_is_up_to_date := false |}, 2, 0.
  split; [exact unit_tetrahedron_solid|]. split; [exact unit_tetrahedron_regular|]. split; [exact unit_tetrahedron_not_inverted|]. split; [reflexivity|].
  intros c1 H. injection H as H. revert H. subst c1. cbn [current_x step fst parameters].
  assert (G : forall E, getPotentialEnergy (before_update SaintVenantKirchhoff E 0) unit_tetrahedron pulled = E * (3 / 8)).
  { intros E. unfold getPotentialEnergy. cbn [positions unit_tetrahedron pulled length Nat.eqb negb connectivity map Rsum fold_right].
    rewrite (element_energy_spec _ unit_tetrahedron pulled [0; 1; 2; 3]%nat 4).
    - unfold quad. rewrite get_gauss_nodes_alt. change (gauss_nodes (kind unit_tetrahedron)) with (gauss_nodes Tetrahedron_Linear). cbn [gauss_nodes]. unfold Tetrahedron_Linear_gauss. cbn [map Rsum fold_right].
      match goal with |- context [gradient ?x ?r ?g] => assert (GM : gradient x r g = [[2; 1; 0]; [0; 1; 0]; [0; 0; 1]]) end.
      { unfold gradient, the_node, unit_tetrahedron, pulled, gather. cbn. repeat match goal with |- _ :: _ = _ :: _ => apply f_equal2 | |- [] = [] => reflexivity end; field. }
      rewrite GM. clear GM.
      assert (CG : cauchy_green [[2; 1; 0]; [0; 1; 0]; [0; 0; 1]] = [[4; 2; 0]; [2; 2; 0]; [0; 0; 1]]).
      { unfold cauchy_green, of_entries, sum3, entries. cbn. repeat match goal with |- _ :: _ = _ :: _ => apply f_equal2 | |- [] = [] => reflexivity end; ring. }
      rewrite CG. unfold the_node, before_update, strain_energy_density. cbn. unfold trace. cbn.
      rewrite Rabs_right by lra. field.
    - reflexivity.
    - apply unit_tetrahedron_solid.
    - exact pulled_field.
    - reflexivity.
    - repeat constructor.
    - exact (Forall_inv unit_tetrahedron_regular). }
  rewrite !G. lra.
Qed.
Print Assumptions C55_energy_after_parameter_change_refuted.

(** The hypotheses of C69_linearisation_point are met: the forces, then a move and two uses of the stiffness. *)
Example C69_example :
  let c := {| current_x := positions unit_tetrahedron; material_law := NeoHookean; young_modulus := 1000; poisson_ratio := / 4;
              parameters := before_update NeoHookean 1 0; p_K := []; K_is_up_to_date := true |} in
  let ts := assemble_stiffness (before_update NeoHookean 1000 (/ 4)) unit_tetrahedron pulled in
  snd (step unit_tetrahedron (after unit_tetrahedron c [AddForce pulled; SetPositions pulled; AddKToMatrix 1 0; SetPositions (positions unit_tetrahedron)])
     (AddDForce 2 (concat pulled) (concat pulled))) = DForces (addDForce ts 12 2 (concat pulled) (concat pulled)).
Proof.
  intros c ts.
  destruct (C69_linearisation_point unit_tetrahedron c pulled [SetPositions pulled] (AddKToMatrix 1 0) [SetPositions (positions unit_tetrahedron)]) as (_ & H & _).
  - reflexivity.
  - discriminate.
  - discriminate.
  - repeat constructor.
  - exact I.
  - repeat constructor.
  - exact (H 2 (concat pulled) (concat pulled)).
Qed.
