(** Affine elements and meshes of them: motions without strain are rigid (C93). *)

From Coq Require Import ZArith Reals Lra Lia.
From Coquelicot Require Import Coquelicot.
From Coq Require Import List Arith Bool.
From Verif Require Import GridGeoModel ShapeModel ShapeSpec ShapeProofs ShapeFieldProofs ShapeGaussProofs LinAlg LinAlgProofs RectSpec NewtonLocalProofs BarycentricModel MappingSpec MappingProofs TensorModel TensorSpec
  MaterialModel MaterialSpec MaterialProofs MaterialProperties SparseModel SparseProofs Sums HyperModel HyperSpec HyperProofs HyperProofs2 HyperProofs3 HyperProofs4 HyperProperties
  SpectrumProofs StabilitySpec StabilityProofs StabilityProofs2 StabilityProofs3 StabilityProofs4.
Import ListNotations.
Open Scope R_scope.

(** ** Points whose mutual distances do not change at first order *)
Section Bodies.
Context (n : nat) (x y : nat -> nat -> R) (i0 i1 i2 i3 : nat).
Hypothesis H0 : (i0 < n)%nat. Hypothesis H1 : (i1 < n)%nat. Hypothesis H2 : (i2 < n)%nat. Hypothesis H3 : (i3 < n)%nat.
Hypothesis distances : forall a b, (a < n)%nat -> (b < n)%nat -> sum3 (fun c => (y b c - y a c) * (x b c - x a c)) = 0.
Hypothesis volume : volume4 (x i0) (x i1) (x i2) (x i3) <> 0.

Let base (j : nat) : nat := nth j [i1; i2; i3] 0%nat.
Let ee (a c : nat) : R := x a c - x i0 c.
Let dd (a c : nat) : R := y a c - y i0 c.
Let M (j c : nat) : R := ee (base j) c.

Lemma base_lt j : (j < 3)%nat -> (base j < n)%nat.
Proof. intros Hj. unfold base. destruct j as [|[|[|]]]; try lia; assumption. Qed.
Lemma M_volume : det3 M <> 0.
Proof. intros Z. apply volume. rewrite <- Z. unfold volume4, det3, M, ee, base. cbn [nth]. ring. Qed.

Lemma orthogonal (z : nat -> R) : (forall j, (j < 3)%nat -> sum3 (fun c => z c * M j c) = 0) -> forall c, (c < 3)%nat -> z c = 0.
Proof.
  intros Z c Hc. pose proof (Z 0%nat ltac:(lia)) as Z0. pose proof (Z 1%nat ltac:(lia)) as Z1. pose proof (Z 2%nat ltac:(lia)) as Z2.
  assert (E : z c * det3 M = sum3 (fun j => sum3 (fun k => z k * M j k) * adj M c j)).
  { unfold sum3, det3, adj. destruct c as [|[|[|]]]; try lia; cbn; ring. }
  unfold sum3 at 1 in E. rewrite Z0, Z1, Z2 in E. assert (W : z c * det3 M = 0) by lra.
  apply Rmult_integral in W. destruct W as [W|W]; [exact W|]. destruct (M_volume W).
Qed.

Lemma cross_terms a b : (a < n)%nat -> (b < n)%nat -> sum3 (fun c => dd a c * ee b c) + sum3 (fun c => dd b c * ee a c) = 0.
Proof.
  intros Ha Hb. pose proof (distances a b Ha Hb) as D1. pose proof (distances i0 a H0 Ha) as D2. pose proof (distances i0 b H0 Hb) as D3.
  unfold sum3, dd, ee in *. lra.
Qed.

Definition rate (i l : nat) : R := sum3 (fun k => dd (base k) i * (adj M l k / det3 M)).
Lemma rate_base i j : (j < 3)%nat -> sum3 (fun l => rate i l * M j l) = dd (base j) i.
Proof.
  intros Hj. pose proof M_volume as N. unfold rate, sum3. generalize (fun k => dd (base k) i). intros f.
  change (dd (base 0) i) with ((fun k => dd (base k) i) 0%nat).
  revert N. generalize M. intros m N. unfold adj. unfold det3 in *. destruct j as [|[|[|]]]; try lia; cbn; field; exact N.
Qed.
Lemma rate_skew i l : (i < 3)%nat -> (l < 3)%nat -> rate i l + rate l i = 0.
Proof.
  intros Hi Hl. set (Q := fun a b => rate a b + rate b a).
  assert (E : forall k c, (k < 3)%nat -> (c < 3)%nat -> sum3 (fun b => Q c b * M k b) = 0).
  { intros k c Hk. revert c. apply orthogonal. intros j Hj.
    pose proof (cross_terms (base j) (base k) (base_lt j Hj) (base_lt k Hk)) as C.
    transitivity (sum3 (fun c => sum3 (fun b => rate c b * M k b) * M j c) + sum3 (fun c => sum3 (fun b => rate c b * M j b) * M k c)).
    - unfold Q, sum3. ring.
    - rewrite (sum3_ext _ (fun c => dd (base k) c * M j c)) by (intros c Hc; rewrite rate_base by exact Hk; reflexivity).
      rewrite (sum3_ext (fun c => _ * M k c) (fun c => dd (base j) c * M k c)) by (intros c Hc; rewrite rate_base by exact Hj; reflexivity).
      unfold M. lra. }
  revert l Hl. apply (orthogonal (fun l => Q i l)). intros j Hj. exact (E j i Hj Hi).
Qed.

Lemma rate_any a i : (a < n)%nat -> (i < 3)%nat -> dd a i = sum3 (fun l => rate i l * ee a l).
Proof.
  intros Ha Hi. cut (forall c, (c < 3)%nat -> dd a c - sum3 (fun l => rate c l * ee a l) = 0); [intros H; specialize (H i Hi); lra|].
  apply (orthogonal (fun c => dd a c - sum3 (fun l => rate c l * ee a l))). intros k Hk. cbv beta.
  pose proof (cross_terms a (base k) Ha (base_lt k Hk)) as C. fold (M k) in C.
  assert (S : forall p q, (p < 3)%nat -> (q < 3)%nat -> rate p q = - rate q p) by (intros p q Hp Hq; pose proof (rate_skew p q Hp Hq); lra).
  assert (B0 := rate_base 0 k Hk). assert (B1 := rate_base 1 k Hk). assert (B2 := rate_base 2 k Hk).
  unfold sum3 in *. rewrite <- B0, <- B1, <- B2 in C. unfold M in *.
  rewrite (S 0%nat 0%nat), (S 1%nat 1%nat), (S 2%nat 2%nat), (S 1%nat 0%nat), (S 2%nat 0%nat), (S 2%nat 1%nat) by lia.
  rewrite (S 0%nat 0%nat), (S 1%nat 1%nat), (S 2%nat 2%nat), (S 1%nat 0%nat), (S 2%nat 0%nat), (S 2%nat 1%nat) in C by lia.
  assert (D0 : rate 0 0 = 0) by (pose proof (S 0%nat 0%nat ltac:(lia) ltac:(lia)); lra).
  assert (D1 : rate 1 1 = 0) by (pose proof (S 1%nat 1%nat ltac:(lia) ltac:(lia)); lra).
  assert (D2 : rate 2 2 = 0) by (pose proof (S 2%nat 2%nat ltac:(lia) ltac:(lia)); lra).
  rewrite D0, D1, D2 in *. lra.
Qed.

Lemma body_motion : exists t w, forall a, (a < n)%nat -> moves t w (x a) (y a).
Proof.
  set (w := fun i : nat => match i with O => rate 2 1 | 1%nat => rate 0 2 | _ => rate 1 0 end).
  exists (fun i => y i0 i - motion (fun _ => 0) w (x i0) i), w. intros a Ha i Hi.
  pose proof (rate_any a i Ha Hi) as R. unfold dd, ee, sum3 in R.
  replace (y a i) with (y i0 i + (rate i 0 * (x a 0%nat - x i0 0%nat) + rate i 1 * (x a 1%nat - x i0 1%nat) + rate i 2 * (x a 2%nat - x i0 2%nat))) by lra.
  assert (K : forall p q, (p < 3)%nat -> (q < 3)%nat -> rate p q + rate q p = 0) by exact rate_skew. unfold motion, w.
  destruct i as [|[|[|]]]; try lia.
  - replace (rate 0 0) with 0 by (pose proof (K 0%nat 0%nat ltac:(lia) ltac:(lia)); lra). replace (rate 0 1) with (- rate 1 0) by (pose proof (K 0%nat 1%nat ltac:(lia) ltac:(lia)); lra).
    ring.
  - replace (rate 1 1) with 0 by (pose proof (K 1%nat 1%nat ltac:(lia) ltac:(lia)); lra). replace (rate 1 2) with (- rate 2 1) by (pose proof (K 1%nat 2%nat ltac:(lia) ltac:(lia)); lra).
    ring.
  - replace (rate 2 2) with 0 by (pose proof (K 2%nat 2%nat ltac:(lia) ltac:(lia)); lra). replace (rate 2 0) with (- rate 0 2) by (pose proof (K 2%nat 0%nat ltac:(lia) ltac:(lia)); lra).
    ring.
Qed.
End Bodies.

(** ** One affine element *)
Section Element.
Context (d : domain) (v : list (list R)) (row : list nat) (x0 : list R) (E : list (list R)).
Hypothesis Sd : solid d.
Hypothesis RG : regular d.
Hypothesis Fv : field (length (positions d)) 3 v.
Hypothesis HF : full (kind d).
Hypothesis Hr : In row (connectivity d).
Hypothesis AF : affine_element 3 (kind d) (nodes_of_element d row) x0 E.
Hypothesis SF : strain_free d v.
Let n := NumberOfNodes (kind d).
Let X := entries (positions d).
Let V := entries v.
Let node (a : nat) : nat := nth a row 0%nat.
Let Jv (xi : list R) : nat -> nat -> R := fun c k => Rsum (map (fun a => V (node a) c * der (kind d) a k xi) (seq 0 n)).

Lemma row_len : length row = n. Proof. exact (proj1 (solid_row d row Sd Hr)). Qed.
Lemma node_lt a : (a < n)%nat -> (node a < length (positions d))%nat.
Proof. intros Ha. apply (proj1 (Forall_forall _ _) (proj2 (solid_row d row Sd Hr))). apply nth_In. rewrite row_len. exact Ha. Qed.
Lemma gathered_table x : field (length (positions d)) 3 x -> table n 3 (gather x row).
Proof.
  intros [Lx Fx]. split; [unfold gather; rewrite map_length; apply row_len|]. apply Forall_forall. intros r H. unfold gather in H. apply in_map_iff in H.
  destruct H as (p & <- & Hp). apply (proj1 (Forall_forall _ _) Fx). apply nth_In. rewrite Lx.
  exact (proj1 (Forall_forall _ _) (proj2 (solid_row d row Sd Hr)) p Hp).
Qed.
Lemma canonical3 : CanonicalDimension (kind d) = 3%nat. Proof. apply Sd. Qed.
Lemma rest_E xi : length xi = 3%nat -> jacobian 3 (kind d) (nodes_of_element d row) xi = E.
Proof.
  intros L. apply (jacobian_affine 3 (kind d) _ x0); [apply gathered_table; apply Sd|exact AF|rewrite canonical3; exact L].
Qed.
Lemma Jv_entries xi c k : (c < 3)%nat -> (k < 3)%nat -> entries (jacobian 3 (kind d) (gather v row) xi) c k = Jv xi c k.
Proof.
  intros Hc Hk. change xi with (fst (xi, 0)). rewrite (jacobian_entries d row (xi, 0) canonical3 row_len v), entries_of_entries by assumption.
  unfold grad, Jv. fold n. apply Rsum_ext. intros a Ha. apply in_seq in Ha. rewrite gather_entries by (rewrite row_len; lia). reflexivity.
Qed.
Lemma E_matrix : matrix3 E.
Proof. destruct AF as ((L1 & L2) & _). split; [exact L1|]. rewrite canonical3 in L2. exact L2. Qed.
Lemma a_gauss_node : exists q, In q (gauss_nodes (kind d)).
Proof. destruct HF as [<-|[<-|[<-|[]]]]; eexists; left; reflexivity. Qed.
Lemma E_volume : det E <> 0.
Proof.
  destruct a_gauss_node as [q Hq]. pose proof (proj1 (Forall_forall _ _) (proj1 (Forall_forall _ _) RG row Hr) q Hq) as N. cbv beta in N.
  unfold local_volume in N. rewrite rest_E in N by (apply (gauss_position_length3 (kind d)); [apply canonical3|exact Hq]). exact N.
Qed.

Definition bent (xi : list R) (i j : nat) : R := sum3 (fun c => entries E c i * Jv xi c j) + sum3 (fun c => entries E c j * Jv xi c i).
Lemma bent_gauss q i j : In q (gauss_nodes (kind d)) -> (i < 3)%nat -> (j < 3)%nat -> bent (fst q) i j = 0.
Proof.
  intros Hq Hi Hj. pose proof (SF row q Hr Hq) as S0. set (G := displacement_gradient d v row (fst q)) in *.
  assert (L : length (fst q) = 3%nat) by (apply (gauss_position_length3 (kind d)); [apply canonical3|exact Hq]).
  assert (P : forall c k, (c < 3)%nat -> (k < 3)%nat -> Jv (fst q) c k = sum3 (fun l => entries G c l * entries E l k)).
  { intros c k Hc Hk. rewrite <- Jv_entries by assumption. rewrite <- (product_inverse (jacobian 3 (kind d) (gather v row) (fst q)) E c k E_matrix E_volume Hc Hk).
    unfold G, displacement_gradient. rewrite rest_E by exact L. reflexivity. }
  assert (K : forall a b, (a < 3)%nat -> (b < 3)%nat -> entries G a b = - entries G b a) by (intros a b Ha Hb; pose proof (strain_zero G a b S0 Ha Hb); lra).
  unfold bent. unfold sum3 at 1 2. rewrite !P by lia. unfold sum3.
  assert (D0 : entries G 0 0 = 0) by (pose proof (K 0%nat 0%nat ltac:(lia) ltac:(lia)); lra).
  assert (D1 : entries G 1 1 = 0) by (pose proof (K 1%nat 1%nat ltac:(lia) ltac:(lia)); lra).
  assert (D2 : entries G 2 2 = 0) by (pose proof (K 2%nat 2%nat ltac:(lia) ltac:(lia)); lra).
  rewrite D0, D1, D2, (K 1%nat 0%nat), (K 2%nat 0%nat), (K 2%nat 1%nat) by lia. ring.
Qed.
Lemma map2_scal (A : Type) (f : A -> R) (s : R) ls (gs : list A) : Rsum (map2 (fun l g => l * (s * f g)) ls gs) = s * Rsum (map2 (fun l g => l * f g) ls gs).
Proof. revert gs. induction ls as [|l ls IH]; intros [|g gs]; cbn [map2 Rsum fold_right]; try ring. change (fold_right Rplus 0) with Rsum. rewrite IH. ring. Qed.
Lemma map2_plus (A : Type) (f h : A -> R) ls (gs : list A) : Rsum (map2 (fun l g => l * (f g + h g)) ls gs) = Rsum (map2 (fun l g => l * f g) ls gs) + Rsum (map2 (fun l g => l * h g) ls gs).
Proof. revert gs. induction ls as [|l ls IH]; intros [|g gs]; cbn [map2 Rsum fold_right]; try ring. change (fold_right Rplus 0) with Rsum. rewrite IH. ring. Qed.
Lemma map2_zero (A : Type) (f : A -> R) ls (gs : list A) : (forall g, In g gs -> f g = 0) -> Rsum (map2 (fun l g => l * f g) ls gs) = 0.
Proof.
  revert gs. induction ls as [|l ls IH]; intros [|g gs] H; cbn [map2 Rsum fold_right]; try reflexivity. change (fold_right Rplus 0) with Rsum.
  rewrite IH by (intros h Hh; apply H; right; exact Hh). rewrite (H g (or_introl eq_refl)). ring.
Qed.
Lemma Jv_spread xi ls c k : spreads (kind d) xi ls -> (k < 3)%nat -> Jv xi c k = Rsum (map2 (fun l g => l * Jv (fst g) c k) ls (gauss_nodes (kind d))).
Proof.
  intros S Hk. unfold Jv.
  rewrite (Rsum_ext _ _ (fun a => Rsum (map2 (fun l g => l * (V (node a) c * der (kind d) a k (fst g))) ls (gauss_nodes (kind d))))).
  2:{ intros a Ha. apply in_seq in Ha. rewrite (S a k) by (fold n; lia). symmetry. apply map2_scal. }
  induction (seq 0 n) as [|a l IH].
  - cbn [map Rsum fold_right]. symmetry. apply (map2_zero _ (fun _ => 0)). reflexivity.
  - cbn [map Rsum fold_right]. change (fold_right Rplus 0) with Rsum. rewrite IH. symmetry. apply map2_plus.
Qed.
Lemma bent_zero xi i j : length xi = 3%nat -> (i < 3)%nat -> (j < 3)%nat -> bent xi i j = 0.
Proof.
  intros L Hi Hj. destruct (spread (kind d) xi HF L) as [ls S]. unfold bent, sum3. rewrite !(Jv_spread xi ls) by assumption.
  rewrite <- !map2_scal, <- !map2_plus. apply map2_zero. intros q Hq. exact (bent_gauss q i j Hq Hi Hj).
Qed.

(** Two points of the reference element *)
Definition interpolated (xi : list R) (c : nat) : R := Rsum (map (fun a => V (node a) c * nth a (L (kind d) xi) 0) (seq 0 n)).
Lemma increment p q c : length p = 3%nat -> length q = 3%nat ->
  interpolated q c - interpolated p c = sum3 (fun k => (Jv p c k + 4 * Jv (middle p q) c k + Jv q c k) / 6 * (nth k q 0 - nth k p 0)).
Proof.
  intros Lp Lq. unfold interpolated. rewrite <- Rsum_minus.
  rewrite (Rsum_ext _ _ (fun a => sum3 (fun k => (V (node a) c * der (kind d) a k p + 4 * (V (node a) c * der (kind d) a k (middle p q)) + V (node a) c * der (kind d) a k q) * ((nth k q 0 - nth k p 0) / 6)))).
  2:{ intros a Ha. apply in_seq in Ha. rewrite <- Rmult_minus_distr_l. rewrite (simpson (kind d) p q a HF Lp Lq) by (fold n; lia).
      cbn [seq map Rsum fold_right]. unfold sum3. field. }
  unfold sum3. rewrite !Rsum_plus, !Rsum_scal_r, !Rsum_plus, !Rsum_scal_l. unfold Jv. field.
Qed.
Lemma chords p q : length p = 3%nat -> length q = 3%nat ->
  sum3 (fun c => (interpolated q c - interpolated p c) * sum3 (fun i => entries E c i * (nth i q 0 - nth i p 0))) = 0.
Proof.
  intros Lp Lq. assert (Lm : length (middle p q) = 3%nat).
  { destruct p as [|? [|? [|? [|]]]], q as [|? [|? [|? [|]]]]; try discriminate; reflexivity. }
  unfold sum3 at 1. rewrite !increment by assumption.
  pose proof (fun i j Hi Hj => bent_zero p i j Lp Hi Hj) as Bp. pose proof (fun i j Hi Hj => bent_zero q i j Lq Hi Hj) as Bq. pose proof (fun i j Hi Hj => bent_zero (middle p q) i j Lm Hi Hj) as Bm.
  set (D := fun k => nth k q 0 - nth k p 0).
  transitivity (sum3 (fun i => sum3 (fun j => / 12 * (bent p i j + 4 * bent (middle p q) i j + bent q i j) * D i * D j))).
  - unfold bent, sum3, D. field.
  - unfold sum3. rewrite !Bp, !Bq, !Bm by lia. ring.
Qed.

(** The nodes *)
Let ref (a : nat) : list R := nth a (canonical_nodes (kind d)) [].
Lemma ref_length a : (a < n)%nat -> length (ref a) = 3%nat.
Proof.
  unfold n, ref. destruct HF as [<-|[<-|[<-|[]]]]; cbn [NumberOfNodes]; intros Ha.
  - do 4 (destruct a as [|a]; [reflexivity|]). lia.
  - do 10 (destruct a as [|a]; [reflexivity|]). lia.
  - do 8 (destruct a as [|a]; [reflexivity|]). lia.
Qed.
Lemma interpolated_node a c : (a < n)%nat -> interpolated (ref a) c = V (node a) c.
Proof.
  intros Ha. unfold interpolated. rewrite (Rsum_ext _ _ (fun b => if Nat.eqb a b then V (node b) c else 0)).
  - rewrite (Rsum_delta (fun b => V (node b) c)) by exact Ha. reflexivity.
  - intros b Hb. apply in_seq in Hb. unfold ref. rewrite kronecker by (fold n; lia). destruct (Nat.eq_dec b a) as [-> |N].
    + rewrite Nat.eqb_refl. ring.
    + rewrite (proj2 (Nat.eqb_neq a b)) by congruence. ring.
Qed.
Lemma node_position a c : (a < n)%nat -> (c < 3)%nat -> X (node a) c = nth c x0 0 + sum3 (fun i => entries E c i * nth i (ref a) 0).
Proof.
  intros Ha Hc. destruct AF as ((L1 & L2) & Lx & W). specialize (W (ref a)). rewrite canonical3 in W. specialize (W (ref_length a Ha)).
  unfold ref in W at 1. rewrite (world_at_node (kind d) 3 (nodes_of_element d row) a) in W; [|apply gathered_table; apply Sd|exact Ha].
  pose proof (gather_entries (positions d) row a c ltac:(rewrite row_len; exact Ha)) as G. unfold X, node. rewrite <- G. unfold entries at 1.
  change (gather (positions d) row) with (nodes_of_element d row). rewrite W.
  rewrite nth_vadd by (rewrite ?matvec_length; lia). rewrite nth_matvec by lia. f_equal.
  assert (LE : length (nth c E []) = 3%nat) by (rewrite <- canonical3; apply (proj1 (Forall_forall _ _) L2); apply nth_In; lia).
  pose proof (ref_length a Ha) as LR. unfold entries. destruct (length3 _ LE) as (e0 & e1 & e2 & ->), (length3 _ LR) as (r0 & r1 & r2 & ->).
  unfold sum3. cbn. ring.
Qed.
Lemma element_distances a b : (a < n)%nat -> (b < n)%nat -> sum3 (fun c => (V (node b) c - V (node a) c) * (X (node b) c - X (node a) c)) = 0.
Proof.
  intros Ha Hb. rewrite <- (chords (ref a) (ref b) (ref_length a Ha) (ref_length b Hb)). apply sum3_ext. intros c Hc.
  rewrite !interpolated_node, !node_position by assumption. unfold sum3. ring.
Qed.
Lemma affine_rigid : exists t w, forall p, In p row -> moves t w (X p) (V p).
Proof.
  assert (C : exists i0 i1 i2 i3, (i0 < n)%nat /\ (i1 < n)%nat /\ (i2 < n)%nat /\ (i3 < n)%nat /\ volume4 (X (node i0)) (X (node i1)) (X (node i2)) (X (node i3)) <> 0).
  { pose proof E_volume as N. rewrite (det_entries _ E_matrix) in N.
    destruct HF as [K|[K|[K|[]]]].
    - exists 0%nat, 1%nat, 2%nat, 3%nat. unfold n. rewrite <- K. cbn [NumberOfNodes]. split; [lia|]. split; [lia|]. split; [lia|]. split; [lia|].
      unfold volume4. rewrite !node_position by (first [lia | unfold n; rewrite <- K; cbn [NumberOfNodes]; lia]). unfold ref. rewrite <- K. cbn [canonical_nodes nth].
      intros Z. apply N. rewrite <- Z. unfold det3, sum3. ring.
    - exists 0%nat, 1%nat, 2%nat, 3%nat. unfold n. rewrite <- K. cbn [NumberOfNodes]. split; [lia|]. split; [lia|]. split; [lia|]. split; [lia|].
      unfold volume4. rewrite !node_position by (first [lia | unfold n; rewrite <- K; cbn [NumberOfNodes]; lia]). unfold ref. rewrite <- K. cbn [canonical_nodes nth].
      intros Z. apply N. rewrite <- Z. unfold det3, sum3. ring.
    - exists 0%nat, 1%nat, 3%nat, 4%nat. unfold n. rewrite <- K. cbn [NumberOfNodes]. split; [lia|]. split; [lia|]. split; [lia|]. split; [lia|].
      unfold volume4. rewrite !node_position by (first [lia | unfold n; rewrite <- K; cbn [NumberOfNodes]; lia]). unfold ref. rewrite <- K. cbn [canonical_nodes Hexahedron_Linear_canonical_nodes nth].
      intros Z. apply N. assert (Q : 8 * det3 (entries E) = 0) by (rewrite <- Z; unfold det3, sum3; ring). lra. }
  destruct C as (i0 & i1 & i2 & i3 & B0 & B1 & B2 & B3 & N).
  destruct (body_motion n (fun a => X (node a)) (fun a => V (node a)) i0 i1 i2 i3 B0 B1 B2 B3 element_distances N) as (t & w & M).
  exists t, w. intros p Hp. apply (In_nth row p 0%nat) in Hp. destruct Hp as (a & Ha & <-). rewrite row_len in Ha. exact (M a Ha).
Qed.
End Element.

(** ** Meshes *)
Lemma nodes_not_aligned d a b c : solid d -> (a < length (positions d))%nat -> (b < length (positions d))%nat -> (c < length (positions d))%nat ->
  not_aligned (nth a (positions d) []) (nth b (positions d) []) (nth c (positions d) []) <->
  cross_nonzero (entries (positions d) a) (entries (positions d) b) (entries (positions d) c).
Proof.
  intros Sd Ha Hb Hc. assert (FX := proj2 (proj2 (proj2 Sd))).
  assert (La : length (nth a (positions d) []) = 3%nat) by (apply (proj1 (Forall_forall _ _) FX); apply nth_In; assumption).
  assert (Lb : length (nth b (positions d) []) = 3%nat) by (apply (proj1 (Forall_forall _ _) FX); apply nth_In; assumption).
  assert (Lc : length (nth c (positions d) []) = 3%nat) by (apply (proj1 (Forall_forall _ _) FX); apply nth_In; assumption).
  unfold entries. destruct (length3 _ La) as (a0 & a1 & a2 & Ea), (length3 _ Lb) as (b0 & b1 & b2 & Eb), (length3 _ Lc) as (c0 & c1 & c2 & Ec).
  rewrite Ea, Eb, Ec. unfold cross_nonzero, not_aligned, vcross, vminus. cbn [map2 nth]. split.
  - intros NA.
    destruct (Req_dec ((b1 - a1) * (c2 - a2) - (b2 - a2) * (c1 - a1)) 0) as [Z0|Z0]; [|left; exact Z0].
    destruct (Req_dec ((b2 - a2) * (c0 - a0) - (b0 - a0) * (c2 - a2)) 0) as [Z1|Z1]; [|right; left; exact Z1].
    right. right. intros Z2. apply NA. rewrite Z0, Z1, Z2. reflexivity.
  - intros H E. injection E as E0 E1 E2. destruct H as [H|[H|H]]; contradiction.
Qed.

Section Meshes.
Context (d : domain) (v : list (list R)).
Hypothesis Sd : solid d.
Let X := entries (positions d).
Let V := entries v.
Hypothesis element_rigid : forall row, In row (connectivity d) -> exists t w, forall p, In p row -> moves t w (X p) (V p).

Lemma linked_motion r1 r2 t w : linked d r1 r2 -> (forall p, In p r1 -> moves t w (X p) (V p)) -> forall p, In p r2 -> moves t w (X p) (V p).
Proof.
  intros L. induction L as [r Hr|r1 r2 r3 H1 (a & b & c & I1 & I2 & NA) L IH]; intros M; [exact M|]. apply IH.
  assert (H2 : In r2 (connectivity d)) by (destruct L; assumption).
  destruct (element_rigid r2 H2) as (t2 & w2 & M2).
  assert (C : cross_nonzero (X a) (X b) (X c)).
  { apply (nodes_not_aligned d a b c Sd); [| | |exact NA]; apply (proj1 (Forall_forall _ _) (proj2 (solid_row d r1 Sd H1))); apply I1; simpl; tauto. }
  destruct (same_motion t w t2 w2 (X a) (X b) (X c) (V a) (V b) (V c) C) as [EW ET];
    try (apply M; apply I1; simpl; tauto); try (apply M2; apply I2; simpl; tauto).
  intros p Hp i Hi. rewrite (M2 p Hp i Hi). unfold motion. destruct i as [|[|[|]]]; try lia; rewrite !EW, !ET by lia; reflexivity.
Qed.

Lemma whole_motion : one_piece d -> exists t w, forall p, (p < length (positions d))%nat -> moves t w (X p) (V p).
Proof.
  intros [Lk Us]. destruct (connectivity d) as [|r rs] eqn:EC.
  - exists (fun _ => 0), (fun _ => 0). intros p Hp. destruct (Us p Hp) as (r & [] & _).
  - rewrite <- EC in *. assert (Hr : In r (connectivity d)) by (rewrite EC; left; reflexivity).
    destruct (element_rigid r Hr) as (t & w & M). exists t, w. intros p Hp. destruct (Us p Hp) as (r2 & Hr2 & Hp2).
    exact (linked_motion r r2 t w (Lk r r2 Hr Hr2) M p Hp2).
Qed.

Lemma whole_rigid : field (length (positions d)) 3 v -> one_piece d -> rigid (positions d) v.
Proof.
  intros [Lv Fv] OP. destruct (whole_motion OP) as (t & w & M). exists (map t (seq 0 3)), (map w (seq 0 3)). split; [reflexivity|]. split; [reflexivity|].
  assert (LX := proj1 (proj2 (proj2 Sd))). assert (FX := proj2 (proj2 (proj2 Sd))).
  apply (nth_ext _ _ [] []); [rewrite map_length; exact Lv|]. intros p Hp. rewrite Lv in Hp.
  rewrite (nth_indep (map _ (positions d)) [] (vadd (map t (seq 0 3)) (vcross (map w (seq 0 3)) []))) by (rewrite map_length; exact Hp).
  rewrite (map_nth (fun p => vadd (map t (seq 0 3)) (vcross (map w (seq 0 3)) p))).
  assert (L : length (nth p v []) = 3%nat) by (apply (proj1 (Forall_forall _ _) Fv); apply nth_In; lia).
  specialize (M p Hp). unfold moves, V, X, entries in M.
  destruct (length3 _ L) as (a & b & c & E). rewrite E in *.
  pose proof (M 0%nat ltac:(lia)) as M0. pose proof (M 1%nat ltac:(lia)) as M1. pose proof (M 2%nat ltac:(lia)) as M2. unfold motion in M0, M1, M2. cbn [nth] in M0, M1, M2.
  unfold vadd, vcross. cbn [map seq map2 nth]. rewrite M0, M1, M2. repeat (f_equal; try ring).
Qed.

Lemma held_zero a b c : field (length (positions d)) 3 v -> one_piece d ->
  (a < length (positions d))%nat -> (b < length (positions d))%nat -> (c < length (positions d))%nat ->
  not_aligned (nth a (positions d) []) (nth b (positions d) []) (nth c (positions d) []) -> held [a; b; c] v ->
  forall p, (p < length (positions d))%nat -> nth p v [] = [0; 0; 0].
Proof.
  intros [Lv Fv] OP Ha Hb Hc NA H. destruct (whole_motion OP) as (t & w & M). assert (FX := proj2 (proj2 (proj2 Sd))).
  assert (Z : forall p i, In p [a; b; c] -> (i < 3)%nat -> V p i = 0).
  { intros p i Hp Hi. unfold V, entries. rewrite (H p Hp). destruct i as [|[|[|]]]; try lia; reflexivity. }
  assert (Mz : forall p, moves (fun _ => 0) (fun _ => 0) (X p) (fun _ => 0)).
  { intros p i Hi. unfold motion. destruct i as [|[|[|]]]; try lia; ring. }
  assert (Mh : forall p, In p [a; b; c] -> (p < length (positions d))%nat -> moves t w (X p) (fun _ => 0)).
  { intros p Hp Hp' i Hi. rewrite <- (Z p i Hp Hi). exact (M p Hp' i Hi). }
  destruct (same_motion t w (fun _ => 0) (fun _ => 0) (X a) (X b) (X c) (fun _ => 0) (fun _ => 0) (fun _ => 0)) as [EW ET];
    try (apply Mz); try (apply Mh; [simpl; tauto|assumption]).
  { apply (nodes_not_aligned d a b c Sd); assumption. }
  intros p Hp. assert (L : length (nth p v []) = 3%nat) by (apply (proj1 (Forall_forall _ _) Fv); apply nth_In; lia).
  assert (Q : forall i, (i < 3)%nat -> V p i = 0).
  { intros i Hi. rewrite (M p Hp i Hi). unfold motion. destruct i as [|[|[|]]]; try lia; rewrite !EW, !ET by lia; ring. }
  unfold V, entries in Q. destruct (length3 _ L) as (x & y & z & E). rewrite E in *.
  pose proof (Q 0%nat ltac:(lia)) as Q0. pose proof (Q 1%nat ltac:(lia)) as Q1. pose proof (Q 2%nat ltac:(lia)) as Q2. cbn [nth] in *. subst. reflexivity.
Qed.
End Meshes.
