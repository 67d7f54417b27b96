(** Proofs about what is drawn (C94): the loop over the elements, the points drawn, motions. *)

From Coq Require Import ZArith Reals Lra Lia.
From Coquelicot Require Import Coquelicot.
From Coq Require Import List Arith Bool.
From Verif Require Import GridGeoModel ShapeModel ShapeSpec Sums ShapeProofs ShapeFieldProofs LinAlg LinAlgProofs RectSpec NewtonLocalProofs BarycentricModel DrawModel DrawSpec.
Import ListNotations.
Open Scope R_scope.

(** ** The loops *)

Definition face_points (d : domain) (s : R) (x : list (list R)) (f : nat) (row : list nat) : list (list R) :=
  triangulate_face (dim d) (kind d) (scaled_nodes (dim d) (kind d) s (nodes_at x row)) f.

Lemma nth_map_seq_d {A} (g : nat -> A) (d : A) n i : (i < n)%nat -> nth i (map g (seq 0 n)) d = g i.
Proof. intros H. rewrite (nth_indep _ d (g 0%nat)) by (rewrite map_length, seq_length; exact H). rewrite map_nth, seq_nth by exact H. reflexivity. Qed.

Lemma groups_loop d s x : forall rows g, length g = number_of_groups (kind d) ->
  fold_left (add_element d s x) rows g =
  map (fun f => nth f g [] ++ flat_map (face_points d s x f) rows) (seq 0 (number_of_groups (kind d))).
Proof.
  induction rows as [|row rows IH]; intros g Lg.
  - cbn [fold_left flat_map]. apply (list_eq_nth _ []); [rewrite map_length, seq_length; exact Lg|]. intros i Hi. rewrite Lg in Hi.
    rewrite nth_map_seq_d by exact Hi. rewrite app_nil_r. reflexivity.
  - cbn [fold_left]. rewrite IH by (unfold add_element; rewrite map_length, seq_length; reflexivity). apply map_ext_in. intros f Hf. apply in_seq in Hf.
    cbn [flat_map]. rewrite app_assoc. f_equal. unfold add_element. rewrite nth_map_seq_d by lia. reflexivity.
Qed.

Definition the_calls (d : domain) (s : R) (x : list (list R)) : list drawing_call :=
  map (fun f => {| vertices := flat_map (face_points d s x f) (connectivity d); color := group_color f |}) (seq 0 (number_of_groups (kind d))).

Lemma in_range_true (x : list (list R)) (rows : list (list nat)) : (forall row i, In row rows -> In i row -> (i < length x)%nat) <-> forallb (forallb (fun i => Nat.ltb i (length x))) rows = true.
Proof.
  rewrite forallb_forall. split.
  - intros H row Hr. apply forallb_forall. intros i Hi. apply Nat.ltb_lt. exact (H row i Hr Hi).
  - intros H row i Hr Hi. specialize (H row Hr). rewrite forallb_forall in H. apply Nat.ltb_lt. exact (H i Hi).
Qed.

Lemma draw_calls d s x : connectivity d <> [] -> (forall row i, In row (connectivity d) -> In i row -> (i < length x)%nat) ->
  draw true d s x = Some (the_calls d s x).
Proof.
  intros N R. unfold draw. cbn [negb]. destruct (connectivity d) as [|r rs] eqn:E; [congruence|]. cbn [length Nat.eqb].
  rewrite (proj1 (in_range_true x (r :: rs)) R). cbn [negb]. f_equal. rewrite groups_loop by apply repeat_length.
  rewrite map_length, seq_length. unfold the_calls. apply map_ext_in. intros f Hf. apply in_seq in Hf. rewrite nth_map_seq_d by lia.
  rewrite nth_repeat. rewrite E. reflexivity.
Qed.

Lemma placed_range D n rows x : placed D n rows x -> forall row i, In row rows -> In i row -> (i < length x)%nat.
Proof. intros [P _] row i Hr Hi. pose proof (proj1 (Forall_forall _ _) P row Hr) as [_ F]. exact (proj1 (Forall_forall _ _) F i Hi). Qed.
Lemma placed_table D n rows x row : placed D n rows x -> In row rows -> table n D (nodes_at x row).
Proof.
  intros [P F] Hr. pose proof (proj1 (Forall_forall _ _) P row Hr) as [L R]. split; [unfold nodes_at; rewrite map_length; exact L|].
  apply Forall_forall. intros p Hp. unfold nodes_at in Hp. apply in_map_iff in Hp. destruct Hp as (i & <- & Hi).
  apply (proj1 (Forall_forall _ _) F). apply nth_In. exact (proj1 (Forall_forall _ _) R i Hi).
Qed.

(** ** Lists of triangles *)

Lemma triangles_app : forall k a b, length a = (3 * k)%nat -> triangles (a ++ b) = triangles a ++ triangles b.
Proof.
  induction k as [|k IH]; intros a b L.
  - destruct a; [reflexivity|cbn in L; lia].
  - destruct a as [|p [|q [|r a]]]; cbn in L; try lia. cbn [app triangles]. rewrite IH by lia. reflexivity.
Qed.
Definition by_three (vs : list (list R)) : Prop := exists k, length vs = (3 * k)%nat.
Lemma triangles_flat_map {A} (g : A -> list (list R)) : forall l, (forall a, In a l -> by_three (g a)) ->
  triangles (flat_map g l) = flat_map (fun a => triangles (g a)) l.
Proof.
  induction l as [|a l IH]; intros H; [reflexivity|]. cbn [flat_map]. destruct (H a (or_introl eq_refl)) as [k Hk].
  rewrite (triangles_app k) by exact Hk. rewrite IH by (intros b Hb; apply H; right; exact Hb). reflexivity.
Qed.
Lemma by_three_flat_map {A} (g : A -> list (list R)) : forall l, (forall a, In a l -> by_three (g a)) -> by_three (flat_map g l).
Proof.
  induction l as [|a l IH]; intros H; [exists 0%nat; reflexivity|]. cbn [flat_map]. destruct (H a (or_introl eq_refl)) as [k Hk].
  destruct (IH (fun b Hb => H b (or_intror Hb))) as [m Hm]. exists (k + m)%nat. rewrite app_length. lia.
Qed.
Lemma face_by_three D e nodes f : by_three (triangulate_face D e nodes f).
Proof. unfold by_three, triangulate_face. destruct e; [exists 0%nat|exists 0%nat|exists 1%nat|exists 1%nat|exists 2%nat|exists 2%nat|exists 0%nat|exists 0%nat|exists 1%nat|exists 1%nat|exists 2%nat|exists 2%nat|exists 0%nat|exists 0%nat]; reflexivity. Qed.

(** The triangles of one element. *)
Definition element_triangles (D : nat) (e : element) (pts : list (list R)) : list (list (list R)) :=
  flat_map (fun f => triangles (triangulate_face D e pts f)) (seq 0 (number_of_groups e)).

Lemma triangle_sum (F : list (list R) -> R) d s x : 
  Rsum (map F (triangles (all_vertices (the_calls d s x)))) =
  Rsum (map (fun row => Rsum (map F (element_triangles (dim d) (kind d) (scaled_nodes (dim d) (kind d) s (nodes_at x row))))) (connectivity d)).
Proof.
  unfold all_vertices, the_calls. rewrite flat_map_concat_map, map_map. cbn [vertices]. rewrite <- flat_map_concat_map.
  rewrite triangles_flat_map by (intros f _; apply by_three_flat_map; intros row _; apply face_by_three).
  rewrite (flat_map_ext _ (fun f => flat_map (fun row => triangles (face_points d s x f row)) (connectivity d)))
    by (intros f; apply triangles_flat_map; intros row _; apply face_by_three).
  rewrite Rsum_flat_map.
  rewrite (Rsum_ext _ _ (fun f => Rsum (map (fun row => Rsum (map F (triangles (face_points d s x f row)))) (connectivity d))))
    by (intros f _; apply Rsum_flat_map).
  rewrite Rsum_swap. apply Rsum_ext. intros row _. unfold element_triangles. rewrite Rsum_flat_map. reflexivity.
Qed.
