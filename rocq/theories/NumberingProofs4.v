(** Proofs for C103: corotational force fields. *)

From Coq Require Import ZArith Reals Lra Lia.
From Coquelicot Require Import Coquelicot.
From Coq Require Import List Arith Bool Permutation.
From Verif Require Import GridGeoModel ShapeModel ShapeSpec ShapeProofs LinAlg LinAlgProofs RectModel BarycentricModel MappingSpec TensorModel TensorSpec
  MaterialModel MaterialSpec MaterialProofs SparseModel Sums TractionModel TractionProofs HyperModel HyperSpec HyperProofs HyperProofs2 CorotModel CorotSpec CorotProofs CorotProofs2 CorotProperties.
From Verif Require Import NumberingSpec NumberingProofs3.
From Verif Require ShapeFpSumProofs CorotProofs3.
Import ListNotations.
Open Scope R_scope.

(** ** Sums of contributions *)

Definition addable (N : nat) (l : list (nat * list R)) : Prop := Forall (fun p => (fst p < N)%nat /\ length (snd p) = 3%nat) l.
Lemma add_all_permuted N f l l' : field N 3 f -> addable N l -> Permutation l l' -> add_all f l' = add_all f l.
Proof.
  intros [Lf Ff] A P. assert (A' : addable N l') by (apply (Permutation_Forall P), A). unfold addable in *. rewrite <- Lf in A, A'.
  destruct (add_all_spec l f 3 A Ff) as (g & -> & Fg & E). destruct (add_all_spec l' f 3 A' Ff) as (g' & -> & Fg' & E'). f_equal. apply (CorotProofs3.fields_equal (length f)); [exact Fg'|exact Fg|].
  intros p c _. unfold entries. rewrite E, E'. f_equal. apply ShapeFpSumProofs.Rsum_permutation, Permutation_map. symmetry. exact P.
Qed.
Lemma add_all_renumbered N s t f l : renumbering N s t -> field N 3 f -> addable N l ->
  add_all (renumbered N t f) (map (fun q => (s (fst q), snd q)) l) = option_map (renumbered N t) (add_all f l).
Proof.
  intros RN Ff A. pose proof (field_renumbered s t N 3 f RN Ff) as Ff'. assert (A' : addable N (map (fun q => (s (fst q), snd q)) l)).
  { apply Forall_forall. intros q Hq. apply in_map_iff in Hq. destruct Hq as (r & <- & Hr). destruct (proj1 (Forall_forall _ _) A r Hr) as [H1 H2]. split; [apply RN; exact H1|exact H2]. }
  pose proof A as A0. unfold addable in A, A'. rewrite <- (proj1 Ff) in A. rewrite <- (proj1 Ff') in A'.
  destruct (add_all_spec l f 3 A (proj2 Ff)) as (g & -> & Fg & E). destruct (add_all_spec _ _ 3 A' (proj2 Ff')) as (g' & -> & Fg' & E'). cbn [option_map]. f_equal. rewrite (proj1 Ff) in Fg. rewrite (proj1 Ff') in Fg'.
  pose proof (field_renumbered s t N 3 g RN Fg) as Fgr. apply (nth_ext _ _ [] []); [rewrite (proj1 Fg'), (proj1 Fgr); reflexivity|]. intros p Hp. rewrite (proj1 Fg') in Hp.
  apply (nth_ext _ _ 0 0); [rewrite (HyperProofs2.field_row N g' p Fg' Hp), (HyperProofs2.field_row N _ p Fgr Hp); reflexivity|]. intros c _.
  rewrite (E' p c), !renumbered_row, (E (t p) c) by exact Hp. f_equal. rewrite map_map. apply Rsum_ext. intros q Hq. cbn [fst snd].
  destruct (proj1 (Forall_forall _ _) A0 q Hq) as [Hb _]. destruct (RN (fst q) Hb) as (_ & T & _). destruct (RN p Hp) as (_ & _ & S2).
  destruct (Nat.eqb_spec (s (fst q)) p) as [E1|E1], (Nat.eqb_spec (fst q) (t p)) as [E2|E2]; try reflexivity; exfalso.
  - apply E2. rewrite <- E1. symmetry. exact T.
  - apply E1. rewrite E2. exact S2.
Qed.

(** ** What an initialised force field holds *)

Definition rest_stiffness (k : elastic) (E nu : R) (nodes : list (list R)) : list (list R) := element_stiffness (hooke E nu) (NumberOfNodes (kind_of_elements k)) (gauss_nodes_of k nodes).
Definition rest_rotation (c : bool) (k : elastic) (nodes : list (list R)) : list (list R) := if c then frame k nodes else Id3.
Definition holds (m : mesh) (c : bool) (E nu : R) (s : state) : Prop :=
  corotated s = c /\ p_stiffness_matrices s = map (fun row => rest_stiffness (type m) E nu (gather (x0 m) row)) (elements m) /\
  p_initial_rotation s = map (fun row => rest_rotation c (type m) (gather (x0 m) row)) (elements m) /\
  (c = false -> p_current_rotation s = map (fun _ => Id3) (elements m)).

Lemma resize_nil (A B : Type) (l : list B) (v : A) : resize [] (length l) v = map (fun _ => v) l.
Proof. unfold resize. cbn [length]. rewrite firstn_nil, Nat.sub_0_r. cbn [app]. induction l; [reflexivity|]. cbn [length repeat map]. f_equal. assumption. Qed.
Lemma map2_same (A B C : Type) (f : A -> B -> C) (g : B -> A) l : map2 f (map g l) l = map (fun b => f (g b) b) l.
Proof. induction l; [reflexivity|]. cbn [map map2]. f_equal. assumption. Qed.
Lemma map2_map (A B C : Type) (f : A -> B -> C) (g : A -> B) l : map2 f l (map g l) = map (fun a => f a (g a)) l.
Proof. induction l; [reflexivity|]. cbn [map map2]. f_equal. assumption. Qed.
Lemma combine_maps (A B C : Type) (f : A -> B) (g : A -> C) l : combine (map f l) (map g l) = map (fun a => (f a, g a)) l.
Proof. induction l; [reflexivity|]. cbn [map combine]. f_equal. assumption. Qed.

Lemma valid_nodes m : valid_mesh m -> forallb (fun node_indices => forallb (fun node => Nat.ltb node (length (x0 m))) node_indices) (elements m) = true.
Proof.
  intros VM. apply forallb_forall. intros row Hr. destruct (in_elements m row VM Hr) as [_ F]. apply forallb_forall. intros i Hi. apply Nat.ltb_lt. exact (proj1 (Forall_forall _ _) F i Hi).
Qed.
Lemma holds_reinit m c E nu : valid_mesh m -> holds m c E nu (reinit m (fresh c E nu)).
Proof.
  intros VM. unfold reinit. rewrite (valid_nodes m VM). cbn [negb fresh corotated youngModulus poissonRatio p_quadrature_nodes p_initial_rotation p_current_rotation].
  replace (match type m with TetrahedronElastic => [] | HexahedronElastic _ => [] end) with (@nil (list gauss_node)) by (destruct (type m); reflexivity).
  unfold holds. cbn [corotated p_stiffness_matrices p_initial_rotation p_current_rotation]. rewrite !resize_nil, map2_same, map_map. split; [reflexivity|]. split; [reflexivity|]. split; [destruct c; reflexivity|]. reflexivity.
Qed.
Lemma holds_step m c E nu s a : evaluation a -> holds m c E nu s -> holds m c E nu (step m s a).
Proof.
  intros V H. destruct a; try contradiction V; cbn [step]; try exact H.
  - unfold addForce. destruct H as (H1 & H2 & H3 & H4). destruct (negb _); [repeat split; assumption|]. cbn [fst]. unfold holds. cbn [corotated p_stiffness_matrices p_initial_rotation p_current_rotation].
    repeat split; try assumption. intros ->. rewrite H1. apply H4. reflexivity.
  - unfold K. destruct (K_is_up_to_date s); [exact H|]. exact H.
Qed.
Lemma holds_after m c E nu calls : valid_mesh m -> Forall evaluation calls -> holds m c E nu (after m (fresh c E nu) (Reinit :: calls)).
Proof.
  intros VM F. cbn [after fold_left step]. assert (H : holds m c E nu (reinit m (fresh c E nu))) by (apply holds_reinit; exact VM). revert H. generalize (reinit m (fresh c E nu)) as s.
  change (forall s, holds m c E nu s -> holds m c E nu (after m s calls)). induction F as [|a calls V F IH]; intros s H; [exact H|]. cbn [after fold_left]. apply IH. apply holds_step; assumption.
Qed.

Definition element_contributions (m : mesh) (c : bool) (E nu : R) (x : list (list R)) (row : list nat) : list (nat * list R) :=
  let R1 := rest_rotation c (type m) (gather x row) in
  scatter R1 (selfadjoint_times (rest_stiffness (type m) E nu (gather (x0 m) row)) (local_displacement (rest_rotation c (type m) (gather (x0 m) row)) R1 (x0 m) x row)) row.
Definition increment_contributions (m : mesh) (c : bool) (E nu : R) (x : list (list R)) (k : R) (dx : list (list R)) (row : list nat) : list (nat * list R) :=
  let R1 := rest_rotation c (type m) (gather x row) in
  scatter R1 (map (fun v => v * k) (selfadjoint_times (rest_stiffness (type m) E nu (gather (x0 m) row)) (local_increment R1 dx row))) row.

Lemma current_rotations m c E nu s x : holds m c E nu s ->
  (if corotated s then map (fun row => frame (type m) (gather x row)) (elements m) else p_current_rotation s) = map (fun row => rest_rotation c (type m) (gather x row)) (elements m).
Proof. intros (-> & _ & _ & H). destruct c; [reflexivity|]. rewrite H by reflexivity. reflexivity. Qed.
Lemma held_forces m c E nu s x f : holds m c E nu s -> snd (addForce m s x f) = add_all f (flat_map (element_contributions m c E nu x) (elements m)).
Proof.
  intros H. unfold addForce. rewrite (current_rotations m c E nu s x H). destruct H as (H1 & H2 & H3 & _). rewrite H2, map_length, Nat.eqb_refl. cbn [negb snd]. rewrite H3, !combine_maps, map2_map. rewrite flat_map_concat_map. reflexivity.
Qed.
Lemma held_increments m c E nu s x f k dx df : holds m c E nu s ->
  addDForce m (fst (addForce m s x f)) k dx df = add_all df (flat_map (increment_contributions m c E nu x k dx) (elements m)).
Proof.
  intros H. unfold addForce. rewrite (current_rotations m c E nu s x H). destruct H as (H1 & H2 & H3 & _). rewrite H2, map_length, Nat.eqb_refl. cbn [negb fst]. unfold addDForce. cbn [p_stiffness_matrices p_current_rotation].
  rewrite map_length, Nat.eqb_refl. cbn [negb]. rewrite !combine_maps, map2_map. rewrite flat_map_concat_map. reflexivity.
Qed.
Lemma scatter_addable R1 F row N : matrix3 R1 -> Forall (fun i => (i < N)%nat) row -> addable N (scatter R1 F row).
Proof.
  intros [L _] Fr. unfold scatter. rewrite (map2_seq_gen _ _ _ _ 0%nat 0%nat (length row)) by (rewrite ?seq_length; reflexivity). apply Forall_forall. intros q Hq. apply in_map_iff in Hq. destruct Hq as (a & <- & Ha). apply in_seq in Ha. cbn [fst snd].
  split; [apply (proj1 (Forall_forall _ _) Fr), nth_In; lia|]. rewrite map_length. unfold matvec. rewrite map_length. exact L.
Qed.
Lemma rest_rotation_matrix c k nodes : matrix3 (rest_rotation c k nodes).
Proof. destruct c; [apply frame_matrix|]. split; [reflexivity|repeat constructor]. Qed.
Lemma all_addable m (h : list nat -> list (nat * list R)) N : valid_mesh m -> length (x0 m) = N -> (forall row, Forall (fun i => (i < N)%nat) row -> addable N (h row)) -> addable N (flat_map h (elements m)).
Proof.
  intros VM LN H. apply Forall_forall. intros q Hq. apply in_flat_map in Hq. destruct Hq as (row & Hr & Hq). destruct (in_elements m row VM Hr) as [_ F]. rewrite LN in F. exact (proj1 (Forall_forall _ _) (H row F) q Hq).
Qed.

(** ** Other orders, other numbers *)

Lemma reordered_valid m m' : reordered m m' -> valid_mesh m -> valid_mesh m'.
Proof.
  intros (T & X & P) (NE & F & V). unfold valid_mesh. rewrite T, X. split; [|split; [exact F|apply (Permutation_Forall P), V] ].
  intros Z. rewrite Z in P. apply Permutation_sym, Permutation_nil in P. apply NE. exact P.
Qed.
Section Meshes.
Context (m : mesh) (s t : nat -> nat) (N : nat).
Hypothesis VM : valid_mesh m.
Hypothesis LN : length (x0 m) = N.
Hypothesis RN : renumbering N s t.
Let m' := renumbered_elements s t m.
Lemma elements_gather x row : Forall (fun i => (i < N)%nat) row -> gather (renumbered N t x) (map s row) = gather x row.
Proof.
  intros F. unfold gather. rewrite map_map. apply map_ext_in. intros i Hi. destruct (RN i (proj1 (Forall_forall _ _) F i Hi)) as ((H1 & _) & H2 & _). rewrite renumbered_row by exact H1. rewrite H2. reflexivity.
Qed.
Lemma renumbered_elements_valid : valid_mesh m'.
Proof.
  destruct VM as (NE & F & V). rewrite LN in F, V. unfold m', valid_mesh, renumbered_elements. cbn [elements type x0]. rewrite LN. pose proof (field_renumbered s t N 3 (x0 m) RN F) as F'. rewrite (proj1 F').
  split; [intros Z; apply map_eq_nil in Z; apply NE; exact Z|]. split; [exact F'|]. apply Forall_forall. intros row' H. apply in_map_iff in H. destruct H as (row & <- & Hr).
  destruct (proj1 (Forall_forall _ _) V row Hr) as (Lr & Fr & Dr). split; [rewrite map_length; exact Lr|]. split; [|rewrite elements_gather by exact Fr; exact Dr].
  apply Forall_forall. intros j Hj. apply in_map_iff in Hj. destruct Hj as (i & <- & Hi). apply RN. exact (proj1 (Forall_forall _ _) Fr i Hi).
Qed.
Lemma scatter_renumbered R1 F row : scatter R1 F (map s row) = map (fun q => (s (fst q), snd q)) (scatter R1 F row).
Proof.
  unfold scatter. rewrite map_length.
  assert (G : forall (g : nat -> list R) row b, map2 (fun node i => (node, g i)) (map s row) (seq b (length row)) = map (fun q => (s (fst q), snd q)) (map2 (fun node i => (node, g i)) row (seq b (length row)))).
  { clear. intros g row. induction row as [|i row IH]; intros b; [reflexivity|]. cbn [map length seq map2 fst snd]. f_equal. apply IH. }
  apply (G (fun i => map Ropp (matvec R1 [ nth (i * 3) F 0; nth (i * 3 + 1) F 0; nth (i * 3 + 2) F 0 ]))).
Qed.
Lemma displacement_renumbered R0 R1 x row : Forall (fun i => (i < N)%nat) row -> local_displacement R0 R1 (renumbered N t (x0 m)) (renumbered N t x) (map s row) = local_displacement R0 R1 (x0 m) x row.
Proof.
  intros F. unfold local_displacement. rewrite !flat_map_concat_map, map_map. f_equal. apply map_ext_in. intros i Hi. destruct (RN i (proj1 (Forall_forall _ _) F i Hi)) as ((H1 & _) & H2 & _). rewrite !renumbered_row by exact H1. rewrite H2. reflexivity.
Qed.
Lemma increment_renumbered R1 x row : Forall (fun i => (i < N)%nat) row -> local_increment R1 (renumbered N t x) (map s row) = local_increment R1 x row.
Proof.
  intros F. unfold local_increment. rewrite !flat_map_concat_map, map_map. f_equal. apply map_ext_in. intros i Hi. destruct (RN i (proj1 (Forall_forall _ _) F i Hi)) as ((H1 & _) & H2 & _). rewrite !renumbered_row by exact H1. rewrite H2. reflexivity.
Qed.
Lemma contributions_renumbered (h h' : list nat -> list (nat * list R)) :
  (forall row, Forall (fun i => (i < N)%nat) row -> h' (map s row) = map (fun q => (s (fst q), snd q)) (h row)) ->
  flat_map h' (elements m') = map (fun q => (s (fst q), snd q)) (flat_map h (elements m)).
Proof.
  intros H. unfold m', renumbered_elements. cbn [elements]. rewrite !flat_map_concat_map, concat_map, !map_map. f_equal. apply map_ext_in. intros row Hr. apply H. destruct (in_elements m row VM Hr) as [_ F]. rewrite LN in F. exact F.
Qed.
End Meshes.

Lemma reordered_forces m m' c E nu calls calls' x f : let N := length (x0 m) in reordered m m' -> valid_mesh m -> Forall evaluation calls -> Forall evaluation calls' -> field N 3 f ->
  snd (addForce m' (after m' (fresh c E nu) (Reinit :: calls')) x f) = snd (addForce m (after m (fresh c E nu) (Reinit :: calls)) x f).
Proof.
  intros N RO VM Ev Ev' Ff. pose proof (reordered_valid m m' RO VM) as VM'. rewrite (held_forces m' c E nu), (held_forces m c E nu) by (apply holds_after; assumption). destruct RO as (T & X & P).
  replace (element_contributions m' c E nu x) with (element_contributions m c E nu x) by (unfold element_contributions; rewrite T, X; reflexivity).
  apply (add_all_permuted N); [exact Ff| |apply Permutation_flat_map; exact P]. apply (all_addable m _ N VM eq_refl). intros row F. unfold element_contributions. apply scatter_addable; [apply rest_rotation_matrix|exact F].
Qed.
Lemma reordered_increments m m' c E nu calls calls' x f f' k dx df : let N := length (x0 m) in reordered m m' -> valid_mesh m -> Forall evaluation calls -> Forall evaluation calls' -> field N 3 df ->
  addDForce m' (after m' (fresh c E nu) (Reinit :: calls' ++ [AddForce x f'])) k dx df = addDForce m (after m (fresh c E nu) (Reinit :: calls ++ [AddForce x f])) k dx df.
Proof.
  intros N RO VM Ev Ev' Ff. pose proof (reordered_valid m m' RO VM) as VM'. rewrite !app_comm_cons. unfold after. rewrite !fold_left_app. cbn [fold_left step].
  change (fold_left (step m') calls' (reinit m' (fresh c E nu))) with (after m' (fresh c E nu) (Reinit :: calls')). change (fold_left (step m) calls (reinit m (fresh c E nu))) with (after m (fresh c E nu) (Reinit :: calls)).
  rewrite (held_increments m' c E nu), (held_increments m c E nu) by (apply holds_after; assumption). destruct RO as (T & X & P).
  replace (increment_contributions m' c E nu x k dx) with (increment_contributions m c E nu x k dx) by (unfold increment_contributions; rewrite T, X; reflexivity).
  apply (add_all_permuted N); [exact Ff| |apply Permutation_flat_map; exact P]. apply (all_addable m _ N VM eq_refl). intros row F. unfold increment_contributions. apply scatter_addable; [apply rest_rotation_matrix|exact F].
Qed.
Lemma renumbered_corot_forces m s t c E nu calls calls' x f : let N := length (x0 m) in let m' := renumbered_elements s t m in renumbering N s t -> valid_mesh m -> Forall evaluation calls -> Forall evaluation calls' -> field N 3 f ->
  snd (addForce m' (after m' (fresh c E nu) (Reinit :: calls')) (renumbered N t x) (renumbered N t f)) = option_map (renumbered N t) (snd (addForce m (after m (fresh c E nu) (Reinit :: calls)) x f)).
Proof.
  intros N m' RN VM Ev Ev' Ff. pose proof (renumbered_elements_valid m s t N VM eq_refl RN) as VM'. fold m' in VM'. rewrite (held_forces m' c E nu), (held_forces m c E nu) by (apply holds_after; assumption).
  unfold m' at 2. rewrite (contributions_renumbered m s t N VM eq_refl (element_contributions m c E nu x)).
  - apply add_all_renumbered; [exact RN|exact Ff|]. apply (all_addable m _ N VM eq_refl). intros row F. unfold element_contributions. apply scatter_addable; [apply rest_rotation_matrix|exact F].
  - intros row F. unfold element_contributions. cbn [m' renumbered_elements type x0]. fold N. rewrite !(elements_gather s t N RN) by exact F. rewrite (displacement_renumbered m s t N RN) by exact F. apply scatter_renumbered.
Qed.
Lemma renumbered_corot_increments m s t c E nu calls calls' x f f' k dx df : let N := length (x0 m) in let m' := renumbered_elements s t m in renumbering N s t -> valid_mesh m -> Forall evaluation calls -> Forall evaluation calls' -> field N 3 df ->
  addDForce m' (after m' (fresh c E nu) (Reinit :: calls' ++ [AddForce (renumbered N t x) f'])) k (renumbered N t dx) (renumbered N t df) =
  option_map (renumbered N t) (addDForce m (after m (fresh c E nu) (Reinit :: calls ++ [AddForce x f])) k dx df).
Proof.
  intros N m' RN VM Ev Ev' Ff. pose proof (renumbered_elements_valid m s t N VM eq_refl RN) as VM'. fold m' in VM'. rewrite !app_comm_cons. unfold after. rewrite !fold_left_app. cbn [fold_left step].
  change (fold_left (step m') calls' (reinit m' (fresh c E nu))) with (after m' (fresh c E nu) (Reinit :: calls')). change (fold_left (step m) calls (reinit m (fresh c E nu))) with (after m (fresh c E nu) (Reinit :: calls)).
  rewrite (held_increments m' c E nu), (held_increments m c E nu) by (apply holds_after; assumption).
  unfold m' at 2. rewrite (contributions_renumbered m s t N VM eq_refl (increment_contributions m c E nu x k dx)).
  - apply add_all_renumbered; [exact RN|exact Ff|]. apply (all_addable m _ N VM eq_refl). intros row F. unfold increment_contributions. apply scatter_addable; [apply rest_rotation_matrix|exact F].
  - intros row F. unfold increment_contributions. cbn [m' renumbered_elements type x0]. fold N. rewrite !(elements_gather s t N RN) by exact F. rewrite (increment_renumbered s t N RN) by exact F. apply scatter_renumbered.
Qed.
