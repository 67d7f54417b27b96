(** Proofs for C105: areas and weights of a surface described otherwise. *)

From Coq Require Import ZArith Reals Lra Lia.
From Coquelicot Require Import Coquelicot.
From Coq Require Import List Arith Bool Permutation.
From Verif Require Import GridGeoModel ShapeModel ShapeSpec ShapeProofs ShapeFieldProofs LinAlg LinAlgProofs RectModel BarycentricModel MappingSpec Sums TractionModel TractionSpec TractionProofs NumberingSpec SurfaceSpec SurfaceProofs.
From Verif Require ShapeFpSumProofs.
Import ListNotations.
Open Scope R_scope.

Ltac expand := lazy -[Rplus Rmult Ropp Rminus Rdiv Rinv IZR sqrt].

(** ** The symmetries *)
Ltac per_symmetry H := repeat (destruct H as [<-|H]; [|]); try contradiction H.
Lemma side_nodes e s : In s (surface_symmetries e) -> map (carried s) (canonical_nodes e) = map (fun a => nth a (canonical_nodes e) []) (order s).
Proof.
  intros H. destruct e; cbn [surface_symmetries] in H; try contradiction H;
  repeat (destruct H as [<-|H]; [expand; repeat match goal with |- _ :: _ = _ :: _ => apply f_equal2 | |- [] = [] => reflexivity end; field|]); contradiction H.
Qed.
Lemma side_order e s : In s (surface_symmetries e) -> Permutation (order s) (seq 0 (NumberOfNodes e)).
Proof.
  assert (P : forall l n, (length l =? n)%nat && forallb (fun i => existsb (Nat.eqb i) l) (seq 0 n) = true -> Permutation l (seq 0 n)).
  { intros l n Hb. apply andb_prop in Hb. destruct Hb as [Hl Hf]. apply Nat.eqb_eq in Hl. symmetry. apply NoDup_Permutation_bis; [apply seq_NoDup|rewrite seq_length; lia|].
    intros i Hi. rewrite forallb_forall in Hf. specialize (Hf i Hi). apply existsb_exists in Hf. destruct Hf as (j & Hj & E). apply Nat.eqb_eq in E. subst j. exact Hj. }
  intros H. apply P. destruct e; cbn [surface_symmetries] in H; try contradiction H; repeat (destruct H as [<-|H]; [reflexivity|]); contradiction H.
Qed.
Lemma side_turn e s : In s (surface_symmetries e) -> exists a b c d, turn s = [[a; b]; [c; d]] /\ (a * d - b * c = 1 \/ a * d - b * c = -1).
Proof.
  intros H. destruct e; cbn [surface_symmetries] in H; try contradiction H; repeat (destruct H as [<-|H]; [do 4 eexists; split; [reflexivity|first [left; ring | right; ring] ]|]); contradiction H.
Qed.
Lemma permuted_indices (A : Type) (l : list A) (x : A) sigma : (length sigma =? length l)%nat && forallb (fun i => existsb (Nat.eqb i) sigma) (seq 0 (length l)) = true ->
  Permutation (map (fun i => nth i l x) sigma) l.
Proof.
  intros Hb. apply andb_prop in Hb. destruct Hb as [Hl Hf]. apply Nat.eqb_eq in Hl.
  assert (P : Permutation sigma (seq 0 (length l))).
  { symmetry. apply NoDup_Permutation_bis; [apply seq_NoDup|rewrite seq_length; lia|].
    intros i Hi. rewrite forallb_forall in Hf. specialize (Hf i Hi). apply existsb_exists in Hf. destruct Hf as (j & Hj & E). apply Nat.eqb_eq in E. subst j. exact Hj. }
  rewrite P. assert (E : map (fun i => nth i l x) (seq 0 (length l)) = l); [|rewrite E; reflexivity].
  clear. induction l as [|a l IH]; [reflexivity|]. cbn [length seq map nth]. rewrite <- seq_shift, map_map. f_equal. exact IH.
Qed.
Definition side_point (s : symmetry) (g : list R * R) : list R * R := (carried s (fst g), snd g).
Ltac points := unfold side_point; expand; repeat match goal with |- _ :: _ = _ :: _ => apply f_equal2 | |- (_, _) = (_, _) => apply f_equal2 | |- [] = [] => reflexivity end;
  first [reflexivity | unfold Rdiv; ring | lra].
Ltac by_indices sigma := match goal with |- Permutation ?a ?l => replace a with (map (fun i => nth i l ([], 0)) sigma); [apply permuted_indices; reflexivity|points] end.
Lemma side_points e s : In s (surface_symmetries e) -> Permutation (map (side_point s) (gauss_nodes e)) (gauss_nodes e).
Proof.
  intros H. destruct e; cbn [surface_symmetries] in H; try contradiction H.
  - destruct H as [<-|[<-|[] ] ]; by_indices [0%nat].
  - destruct H as [<-|[<-|[] ] ]; [by_indices [2; 1; 0]%nat|by_indices [1; 2; 0]%nat].
  - destruct H as [<-|[<-|[] ] ]; [by_indices [1; 2; 3; 0]%nat|by_indices [1; 0; 3; 2]%nat].
  - destruct H as [<-|[<-|[] ] ]; [by_indices [1; 2; 3; 0]%nat|by_indices [1; 0; 3; 2]%nat].
Qed.
Lemma side_shapes e s u v : In s (surface_symmetries e) -> L e [u; v] = map (fun a => nth a (L e (carried s [u; v])) 0) (order s).
Proof.
  intros H. destruct e; cbn [surface_symmetries] in H; try contradiction H;
  repeat (destruct H as [<-|H]; [expand; repeat match goal with |- _ :: _ = _ :: _ => apply f_equal2 | |- [] = [] => reflexivity end; field|]); contradiction H.
Qed.
Definition slope_of (e : element) (xi : list R) (a k : nat) : R := nth k (nth a (dL e xi) []) 0.
Definition coefficient (s : symmetry) (k l : nat) : R := nth l (nth k (turn s) []) 0.
Lemma side_derivatives e s u v : In s (surface_symmetries e) ->
  dL e [u; v] = map (fun a => map (fun l => slope_of e (carried s [u; v]) a 0 * coefficient s 0 l + slope_of e (carried s [u; v]) a 1 * coefficient s 1 l) (seq 0 2)) (order s).
Proof.
  intros H. destruct e; cbn [surface_symmetries] in H; try contradiction H;
  repeat (destruct H as [<-|H]; [expand; repeat match goal with |- _ :: _ = _ :: _ => apply f_equal2 | |- [] = [] => reflexivity end; field|]); contradiction H.
Qed.

(** ** The area factor *)
Definition tangent (D : nat) (e : element) (nodes : list (list R)) (xi : list R) (k : nat) : list R := column (jacobian D e nodes xi) k.
Definition gram (a b : list R) : R := vdot a a * vdot b b - vdot a b * vdot a b.
Lemma tangent_length D e nodes xi k : length (tangent D e nodes xi k) = D.
Proof. unfold tangent, column, jacobian. rewrite !map_length, seq_length. reflexivity. Qed.
Lemma tangent_nth D e nodes xi k i : CanonicalDimension e = 2%nat -> (k < 2)%nat -> length nodes = NumberOfNodes e -> (i < D)%nat ->
  nth i (tangent D e nodes xi k) 0 = Rsum (map (fun a => nth i (nth a nodes []) 0 * slope_of e xi a k) (seq 0 (NumberOfNodes e))).
Proof.
  intros C Hk Hn Hi. unfold tangent, column, jacobian. rewrite C, map_map. set (h := fun c => _). rewrite (nth_indep _ 0 (h 0%nat)) by (rewrite map_length, seq_length; exact Hi). rewrite (map_nth h), seq_nth by exact Hi.
  cbn [plus]. unfold h. assert (E : forall f : nat -> R, nth k (map f (seq 0 2)) 0 = f k) by (intros f; destruct k as [|[|] ]; [reflexivity|reflexivity|lia]). rewrite E.
  rewrite (map2_seq _ _ _ [] [] (NumberOfNodes e)) by (first [exact Hn | apply length_dL]). reflexivity.
Qed.
Lemma area_gram d nodes xi : (dim d = 2 \/ dim d = 3)%nat -> CanonicalDimension (kind d) = 2%nat ->
  area_factor d nodes xi = sqrt (gram (tangent (dim d) (kind d) nodes xi 0) (tangent (dim d) (kind d) nodes xi 1)).
Proof.
  intros HD C. unfold area_factor, gram, tangent. rewrite C. cbn [Nat.eqb].
  destruct HD as [HD|HD]; rewrite HD; cbn [Nat.eqb andb].
  - unfold jacobian. rewrite C. cbn [seq map]. set (w := Rsum _). set (x := Rsum _). set (y := Rsum _). set (z := Rsum _). rewrite <- sqrt_Rsqr_abs. f_equal.
    cbn [det column map nth]. unfold Rsqr, vdot. cbn [map2 Rsum fold_right]. ring.
  - unfold jacobian. rewrite C. cbn [seq map]. set (w1 := Rsum _). set (w2 := Rsum _). set (w3 := Rsum _). set (w4 := Rsum _). set (w5 := Rsum _). set (w6 := Rsum _).
    rewrite Rabs_pos_eq by apply norm_nonneg. unfold norm, squaredNorm. f_equal. clearbody w1 w2 w3 w4 w5 w6. unfold vcross, column, vdot, Rsum. cbn [map map2 nth fold_right]. ring.
Qed.
Lemma vdot_seq a b D : length a = D -> length b = D -> vdot a b = Rsum (map (fun i => nth i a 0 * nth i b 0) (seq 0 D)).
Proof. intros A B. unfold vdot. rewrite (map2_seq _ _ _ 0 0 D a b A B). reflexivity. Qed.

(** Combinations of the tangents change the Gram determinant by the square of the determinant. *)
Lemma gram_combined a b a' b' D p q r s : length a = D -> length b = D -> length a' = D -> length b' = D ->
  (forall i, (i < D)%nat -> nth i a' 0 = nth i a 0 * p + nth i b 0 * r) -> (forall i, (i < D)%nat -> nth i b' 0 = nth i a 0 * q + nth i b 0 * s) ->
  gram a' b' = (p * s - q * r) * (p * s - q * r) * gram a b.
Proof.
  intros La Lb La' Lb' Ha Hb.
  assert (G : forall x y u v u' v', (forall i, (i < D)%nat -> nth i x 0 = nth i a 0 * u + nth i b 0 * v) -> (forall i, (i < D)%nat -> nth i y 0 = nth i a 0 * u' + nth i b 0 * v') ->
    length x = D -> length y = D -> vdot x y = u * u' * vdot a a + (u * v' + v * u') * vdot a b + v * v' * vdot b b).
  { intros x y u v u' v' Hx Hy Lx Ly. rewrite (vdot_seq x y D Lx Ly), (vdot_seq a a D La La), (vdot_seq a b D La Lb), (vdot_seq b b D Lb Lb). rewrite <- !Rsum_scal_l, <- !Rsum_plus.
    apply Rsum_ext. intros i Hi. apply in_seq in Hi. rewrite Hx, Hy by lia. ring. }
  unfold gram. rewrite (G a' a' p r p r), (G b' b' q s q s), (G a' b' p r q s) by assumption. ring.
Qed.

Lemma plate_canonical d : plate d -> CanonicalDimension (kind d) = 2%nat.
Proof. intros (K & _). destruct K as [-> |[-> |[-> | -> ] ] ]; reflexivity. Qed.
Lemma point2 e g : CanonicalDimension e = 2%nat -> In g (gauss_nodes e) -> exists u v, fst g = [u; v].
Proof. intros C Hg. pose proof (gauss_position_length e g Hg) as L. rewrite C in L. destruct (fst g) as [|u [|v [|] ] ]; try discriminate L. eauto. Qed.

Lemma Rsum_order (h : nat -> R) n o : Permutation o (seq 0 n) -> Rsum (map (fun a => h (nth a o 0%nat)) (seq 0 n)) = Rsum (map h (seq 0 n)).
Proof.
  intros P. assert (L : length o = n) by (rewrite (Permutation_length P); apply seq_length).
  transitivity (Rsum (map h o)); [|apply ShapeFpSumProofs.Rsum_permutation, Permutation_map, P].
  f_equal. rewrite <- L. clear. induction o as [|a o IH]; [reflexivity|]. cbn [length seq map nth]. rewrite <- seq_shift, map_map. f_equal. exact IH.
Qed.

Definition row_integral (d : domain) (f : list nat -> list R -> R) (row : list nat) : R :=
  Rsum (map (fun g => snd g * area_factor d (nodes_of_element d row) (fst g) * f row (fst g)) (gauss_nodes (kind d))).
Definition of_nodes (d : domain) (g : nat -> R) (row : list nat) (xi : list R) : R := Rsum (map2 (fun node l => g node * l) row (L (kind d) xi)).

Section Side.
Context (d : domain) (s : symmetry) (row : list nat).
Hypothesis Pd : plate d.
Hypothesis Hs : In s (surface_symmetries (kind d)).
Hypothesis Hl : length row = NumberOfNodes (kind d).
Let n := NumberOfNodes (kind d).
Let o := order s.
Let row' := map (fun a => nth a row 0%nat) o.
Lemma o_perm : Permutation o (seq 0 n). Proof. apply side_order. exact Hs. Qed.
Lemma o_length : length o = n. Proof. rewrite (Permutation_length o_perm). apply seq_length. Qed.
Lemma o_bound a : (a < n)%nat -> (nth a o 0 < n)%nat.
Proof. intros Ha. assert (I : In (nth a o 0%nat) (seq 0 n)) by (apply (Permutation_in _ o_perm), nth_In; rewrite o_length; exact Ha). apply in_seq in I. lia. Qed.
Lemma side_length : length row' = n. Proof. unfold row'. rewrite map_length. apply o_length. Qed.
Lemma o_nth (A : Type) (h : nat -> A) (x : A) a : (a < n)%nat -> nth a (map h o) x = h (nth a o 0%nat).
Proof. intros Ha. rewrite (nth_indep _ x (h 0%nat)) by (rewrite map_length, o_length; exact Ha). apply map_nth. Qed.
Lemma side_members : Forall (fun i => (i < length (positions d))%nat) row -> Forall (fun i => (i < length (positions d))%nat) row'.
Proof. intros F. apply Forall_forall. intros i Hi. unfold row' in Hi. apply in_map_iff in Hi. destruct Hi as (a & <- & Ha). apply (proj1 (Forall_forall _ _) F), nth_In. rewrite Hl. apply (Permutation_in _ o_perm) in Ha. apply in_seq in Ha. unfold n in Ha. lia. Qed.
Lemma node_nth r a : length r = n -> (a < n)%nat -> nth a (nodes_of_element d r) [] = nth (nth a r 0%nat) (positions d) [].
Proof. intros L Ha. unfold nodes_of_element. set (h := fun i => nth i (positions d) []). rewrite (nth_indep _ [] (h 0%nat)) by (rewrite map_length, L; exact Ha). apply map_nth. Qed.
Lemma nodes_length r : length r = n -> length (nodes_of_element d r) = NumberOfNodes (kind d).
Proof. intros L. unfold nodes_of_element. rewrite map_length. exact L. Qed.
Lemma side_slope u v a l : (a < n)%nat -> (l < 2)%nat -> slope_of (kind d) [u; v] a l =
  slope_of (kind d) (carried s [u; v]) (nth a o 0%nat) 0 * coefficient s 0 l + slope_of (kind d) (carried s [u; v]) (nth a o 0%nat) 1 * coefficient s 1 l.
Proof.
  intros Ha Hl'. unfold slope_of at 1. rewrite (side_derivatives (kind d) s u v Hs). fold o. rewrite o_nth by exact Ha. destruct l as [|[|] ]; [reflexivity|reflexivity|lia].
Qed.
Lemma side_tangent u v i l : (i < dim d)%nat -> (l < 2)%nat ->
  nth i (tangent (dim d) (kind d) (nodes_of_element d row') [u; v] l) 0 =
  nth i (tangent (dim d) (kind d) (nodes_of_element d row) (carried s [u; v]) 0) 0 * coefficient s 0 l + nth i (tangent (dim d) (kind d) (nodes_of_element d row) (carried s [u; v]) 1) 0 * coefficient s 1 l.
Proof.
  intros Hi Hl'. rewrite !tangent_nth by (first [apply plate_canonical; exact Pd | lia | apply nodes_length; first [exact side_length | exact Hl] ]). fold n. rewrite <- !Rsum_scal_r, <- Rsum_plus.
  etransitivity; [|apply (Rsum_order _ n o o_perm)]. apply Rsum_ext. intros a Ha. apply in_seq in Ha. rewrite side_slope by lia.
  rewrite (node_nth row') by (first [apply side_length | lia]). rewrite (node_nth row) by (first [exact Hl | apply o_bound; lia]). unfold row'. rewrite o_nth by lia. ring.
Qed.
Lemma side_area u v : area_factor d (nodes_of_element d row') [u; v] = area_factor d (nodes_of_element d row) (carried s [u; v]).
Proof.
  rewrite !area_gram by (first [apply Pd | apply plate_canonical; exact Pd]). f_equal. destruct (side_turn _ _ Hs) as (a & b & c & e & E & Dt).
  rewrite (gram_combined (tangent (dim d) (kind d) (nodes_of_element d row) (carried s [u; v]) 0) (tangent (dim d) (kind d) (nodes_of_element d row) (carried s [u; v]) 1) _ _ (dim d) a b c e).
  - destruct Dt as [-> | ->]; ring.
  - apply tangent_length.
  - apply tangent_length.
  - apply tangent_length.
  - apply tangent_length.
  - intros i Hi. rewrite side_tangent by lia. unfold coefficient. rewrite E. reflexivity.
  - intros i Hi. rewrite side_tangent by lia. unfold coefficient. rewrite E. reflexivity.
Qed.
Lemma side_of_nodes g u v : of_nodes d g row' [u; v] = of_nodes d g row (carried s [u; v]).
Proof.
  unfold of_nodes. rewrite (map2_seq _ _ _ 0%nat 0 n) by (first [apply side_length | apply length_L]). rewrite (map2_seq _ _ _ 0%nat 0 n) by (first [exact Hl | apply length_L]).
  etransitivity; [|apply (Rsum_order _ n o o_perm)]. apply Rsum_ext. intros a Ha. apply in_seq in Ha. rewrite (side_shapes (kind d) s u v Hs). fold o. unfold row'. rewrite !o_nth by lia. reflexivity.
Qed.
Lemma side_integral f : (forall u v, f row' [u; v] = f row (carried s [u; v])) -> row_integral d f row' = row_integral d f row.
Proof.
  intros Hf. unfold row_integral. rewrite <- (ShapeFpSumProofs.Rsum_permutation (map (fun g => snd g * area_factor d (nodes_of_element d row) (fst g) * f row (fst g)) (map (side_point s) (gauss_nodes (kind d)))) (map (fun g => snd g * area_factor d (nodes_of_element d row) (fst g) * f row (fst g)) (gauss_nodes (kind d))))
    by (apply Permutation_map, side_points, Hs).
  rewrite map_map. apply Rsum_ext. intros g Hg. destruct (point2 (kind d) g (plate_canonical d Pd) Hg) as (u & v & E). cbn [side_point fst snd]. rewrite E, side_area, Hf. reflexivity.
Qed.
End Side.

(** Any listing. *)
Lemma listed_row d row row' : plate d -> length row = NumberOfNodes (kind d) -> Forall (fun i => (i < length (positions d))%nat) row -> relisted_side (kind d) row row' ->
  length row' = NumberOfNodes (kind d) /\ Forall (fun i => (i < length (positions d))%nat) row' /\
  row_integral d (fun _ _ => 1) row' = row_integral d (fun _ _ => 1) row /\ forall g, row_integral d (of_nodes d g) row' = row_integral d (of_nodes d g) row.
Proof.
  intros Pd Hl Hb R. induction R as [|row' s Hs R (L & B & A & I)]; [auto|]. split; [apply (side_length d s row' Hs)|]. split; [apply (side_members d s row' Hs L); exact B|].
  split; [rewrite <- A|intros g; rewrite <- I]; apply (side_integral d s row' Pd Hs L); [reflexivity|]. intros u v. apply (side_of_nodes d s row' Hs L).
Qed.

(** ** Weights *)
Lemma node_weight_integral d j : well_formed d -> node_weight d j = Rsum (map (row_integral d (of_nodes d (fun i => if Nat.eqb i j then 1 else 0))) (connectivity d)).
Proof.
  intros WF. unfold node_weight. rewrite (Rsum_ext _ _ (fun p => snd p * (fun i : nat => if Nat.eqb i j then 1 else 0) (fst p))) by (intros p _; destruct (Nat.eqb (fst p) j); ring).
  apply (weights_integral d (fun i => if Nat.eqb i j then 1 else 0) WF).
Qed.
Lemma area_integral d : area d = Rsum (map (row_integral d (fun _ _ => 1)) (connectivity d)).
Proof. reflexivity. Qed.

Section Same.
Context (d d' : domain).
Hypothesis Pd : plate d.
Hypothesis WF : well_formed d.
Hypothesis SS : same_surface d d'.
Lemma same_rows (f : list nat -> R) : (forall row row', In row (connectivity d) -> relisted_side (kind d) row row' -> f row' = f row) -> Rsum (map f (connectivity d')) = Rsum (map f (connectivity d)).
Proof.
  intros H. destruct SS as (_ & _ & _ & rows & F & P). rewrite <- (ShapeFpSumProofs.Rsum_permutation (map f rows) (map f (connectivity d'))) by (apply Permutation_map, P).
  clear P. revert H F. generalize (connectivity d) as l. intros l H F. induction F as [|row row' l rows R F IH]; [reflexivity|]. cbn [map]. unfold Rsum in *. cbn [fold_right].
  rewrite (H row row') by (first [left; reflexivity | exact R]). f_equal. apply IH. intros r r' Hr. apply H. right. exact Hr.
Qed.
Lemma same_row row' : In row' (connectivity d') -> exists row, In row (connectivity d) /\ relisted_side (kind d) row row'.
Proof.
  intros H. destruct SS as (_ & _ & _ & rows & F & P). apply (Permutation_in _ (Permutation_sym P)) in H. clear P. induction F as [|r r' l rows R F IH]; [destruct H|].
  destruct H as [->|H]; [exists r; split; [left; reflexivity|exact R]|]. destruct (IH H) as (q & Hq & Rq). exists q. split; [right; exact Hq|exact Rq].
Qed.
Lemma row_facts row row' : In row (connectivity d) -> relisted_side (kind d) row row' -> length row' = NumberOfNodes (kind d) /\ Forall (fun i => (i < length (positions d))%nat) row' /\
  row_integral d (fun _ _ => 1) row' = row_integral d (fun _ _ => 1) row /\ forall g, row_integral d (of_nodes d g) row' = row_integral d (of_nodes d g) row.
Proof. intros Hr R. destruct (proj1 (Forall_forall _ _) WF row Hr) as [L B]. apply listed_row; assumption. Qed.
Lemma same_well_formed : well_formed d'.
Proof.
  pose proof SS as (_ & EK & EP & _). unfold well_formed. rewrite EK, EP. apply Forall_forall. intros row' H. destruct (same_row row' H) as (row & Hr & R). destruct (row_facts row row' Hr R) as (L & B & _). auto.
Qed.
Lemma same_row_integral f row : row_integral d' f row = row_integral d f row.
Proof. destruct SS as (ED & EK & EP & _). destruct d as [di k P c], d' as [di' k' P' c']. cbn [dim kind positions] in *. subst. reflexivity. Qed.
Lemma same_area : area d' = area d.
Proof.
  rewrite !area_integral. transitivity (Rsum (map (row_integral d (fun _ _ => 1)) (connectivity d'))); [apply Rsum_ext; intros; apply same_row_integral|]. apply same_rows. intros row row' Hr R. apply (row_facts row row' Hr R).
Qed.
Lemma same_weight j : node_weight d' j = node_weight d j.
Proof.
  rewrite (node_weight_integral d' j same_well_formed), (node_weight_integral d j WF).
  transitivity (Rsum (map (row_integral d (of_nodes d (fun i => if Nat.eqb i j then 1 else 0))) (connectivity d'))); [|apply same_rows; intros row row' Hr R; apply (row_facts row row' Hr R)].
  apply Rsum_ext. intros row _. rewrite same_row_integral. unfold row_integral. apply Rsum_ext. intros g _. f_equal. unfold of_nodes. destruct SS as (_ & -> & _). reflexivity.
Qed.
End Same.
