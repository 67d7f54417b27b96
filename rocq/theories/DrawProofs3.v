(** Proofs about what is drawn (C94): motions, corners, convex hulls, and the two other force fields. *)

From Coq Require Import ZArith Reals Lra Lia.
From Coquelicot Require Import Coquelicot.
From Coq Require Import List Arith Bool.
From Verif Require Import GridGeoModel ShapeModel ShapeSpec Sums ShapeProofs ShapeFieldProofs ShapeGaussProofs LinAlg LinAlgProofs RectSpec NewtonLocalProofs BarycentricModel DrawModel DrawSpec DrawProofs DrawProofs2.
Import ListNotations.
Open Scope R_scope.

(** ** Affine motions *)

Lemma nth_map_lt {A B} (g : A -> B) (da : A) (db : B) l i : (i < length l)%nat -> nth i (map g l) db = g (nth i l da).
Proof. intros H. rewrite (nth_indep _ db (g da)) by (rewrite map_length; exact H). apply map_nth. Qed.

Lemma affine_length D A t p : table D D A -> length t = D -> length (affine_map A t p) = D.
Proof. intros [LA _] Lt. unfold affine_map. rewrite vadd_length; [exact Lt|]. unfold matvec. rewrite map_length. congruence. Qed.
Lemma nth_affine D A t p c : table D D A -> length t = D -> (c < D)%nat -> nth c (affine_map A t p) 0 = nth c t 0 + dot (nth c A []) p.
Proof. intros [LA _] Lt Hc. unfold affine_map. rewrite nth_vadd by (unfold matvec; rewrite ?map_length; lia). rewrite nth_matvec by lia. reflexivity. Qed.

Lemma world_affine D e A t nodes xi : table D D A -> length t = D -> table (NumberOfNodes e) D nodes -> length xi = CanonicalDimension e ->
  world_coordinates D e (map (affine_map A t) nodes) xi = affine_map A t (world_coordinates D e nodes xi).
Proof.
  intros TA Lt [Ln F] Lx. apply (list_eq_nth _ 0); [rewrite world_length, (affine_length D) by assumption; reflexivity|].
  rewrite world_length. intros c Hc. rewrite (nth_affine D) by assumption. unfold world_coordinates at 1, interpolate.
  rewrite nth_map_seq_d by exact Hc. rewrite map2_map_l.
  assert (X : forall ns ls, Forall (fun row => length row = D) ns -> map2 (fun a b => nth c (affine_map A t a) 0 * b) ns ls = map2 (fun row l => (nth c t 0 + dot (nth c A []) row) * l) ns ls).
  { clear - TA Lt Hc. induction ns as [|p ns IH]; intros [|l ls] F; try reflexivity. apply Forall_cons_iff in F. destruct F as [_ F].
    cbn [map2]. rewrite (nth_affine D) by assumption. rewrite IH by exact F. reflexivity. }
  rewrite X by exact F. rewrite Rsum_affine by (rewrite length_L; congruence). rewrite (partition_of_unity e xi Lx).
  unfold world_coordinates, interpolate. rewrite (dot_interpolated D) by (rewrite ?length_L; congruence || exact F). ring.
Qed.

Lemma dot_vscale_r s : forall a b, dot a (vscale s b) = s * dot a b.
Proof. unfold vscale. induction a as [|u a IH]; intros [|v b]; simpl; try ring. rewrite IH. ring. Qed.
Lemma dot_vminus_r : forall b c a, length b = length c -> dot a (vminus b c) = dot a b - dot a c.
Proof. unfold vminus. induction b as [|u b IH]; intros [|v c] [|w a] H; simpl in *; try discriminate; try ring. rewrite IH by congruence. ring. Qed.
Lemma nth_vminus : forall a b c, length a = length b -> (c < length a)%nat -> nth c (vminus a b) 0 = nth c a 0 - nth c b 0.
Proof. induction a as [|u a IH]; intros [|v b] [|c] H Hc; simpl in *; try discriminate; try lia; [reflexivity|]. apply IH; [congruence|lia]. Qed.
Lemma nth_vscale s a c : nth c (vscale s a) 0 = s * nth c a 0.
Proof. unfold vscale. destruct (Nat.lt_ge_cases c (length a)) as [H|H]; [apply nth_map_lt; exact H|]. rewrite !nth_overflow by (rewrite ?map_length; exact H). ring. Qed.
Lemma vminus_length a b : length a = length b -> length (vminus a b) = length a.
Proof. apply map2_length. Qed.
Lemma vscale_length s a : length (vscale s a) = length a.
Proof. apply map_length. Qed.

(** c + s (p - c) *)
Definition towards (s : R) (c p : list R) : list R := vadd c (vscale s (vminus p c)).
Lemma towards_length s c p : length p = length c -> length (towards s c p) = length c.
Proof. intros H. unfold towards. apply vadd_length. rewrite vscale_length, vminus_length; congruence. Qed.
Lemma nth_towards s c p k : length p = length c -> (k < length c)%nat -> nth k (towards s c p) 0 = nth k c 0 + s * (nth k p 0 - nth k c 0).
Proof. intros H Hk. unfold towards. rewrite nth_vadd by (rewrite ?vscale_length, ?vminus_length; congruence || exact Hk). rewrite nth_vscale, nth_vminus by (congruence || lia). reflexivity. Qed.
Lemma towards_affine D A t s c p : table D D A -> length t = D -> length c = D -> length p = D ->
  towards s (affine_map A t c) (affine_map A t p) = affine_map A t (towards s c p).
Proof.
  intros TA Lt Lc Lp. assert (La : forall q, length (affine_map A t q) = D) by (intros q; apply affine_length; assumption).
  apply (list_eq_nth _ 0); [rewrite towards_length; rewrite !La; reflexivity|]. rewrite towards_length by (rewrite !La; reflexivity). rewrite La. intros k Hk.
  rewrite nth_towards by (rewrite !La; reflexivity || exact Hk). rewrite !(nth_affine D) by assumption.
  unfold towards. rewrite dot_vadd_r by (rewrite vscale_length, vminus_length; congruence). rewrite dot_vscale_r, dot_vminus_r by congruence. ring.
Qed.
Lemma towards_one c p : length p = length c -> towards 1 c p = p.
Proof.
  intros H. apply (list_eq_nth _ 0); [rewrite towards_length; congruence|]. rewrite towards_length by exact H. intros k Hk. rewrite nth_towards by assumption. ring.
Qed.

Lemma scaled_is_towards D e s nodes : scaled_nodes D e s nodes = map (towards s (world_coordinates D e nodes (center_local e))) nodes.
Proof. reflexivity. Qed.

Lemma scaled_moved D e s A t nodes : table D D A -> length t = D -> table (NumberOfNodes e) D nodes ->
  scaled_nodes D e s (map (affine_map A t) nodes) = map (affine_map A t) (scaled_nodes D e s nodes).
Proof.
  intros TA Lt T. rewrite !scaled_is_towards. rewrite !map_map. rewrite world_affine by (assumption || apply center_dimension).
  apply map_ext_in. intros p Hp. apply (towards_affine D); try assumption; [apply world_length|]. exact (proj1 (Forall_forall _ _) (proj2 T) p Hp).
Qed.

Lemma emplace_space D p : (D = 2 \/ D = 3)%nat -> length p = D -> emplace D p = in_space D p.
Proof.
  intros [->| ->] L; unfold emplace, in_space; cbn [Nat.eqb].
  - list2 p. reflexivity.
  - list3 p. reflexivity.
Qed.
Lemma emplace_moved D A t p : (D = 2 \/ D = 3)%nat -> table D D A -> length t = D -> length p = D ->
  emplace D (affine_map A t p) = affine_map (lift_matrix D A) (lift_vector D t) (emplace D p).
Proof.
  intros [->| ->] TA Lt Lp; unfold emplace, lift_matrix, lift_vector, affine_map; cbn [Nat.eqb].
  - destruct (explicit22 A TA) as (a & b & c & d & ->). list2 t. list2 p. cbn. repeat (apply f_equal2; [ring|]); reflexivity.
  - destruct (explicit33 A TA) as (a & b & c & d & e & f & g & h & i & ->). list3 t. list3 p. cbn. repeat (apply f_equal2; [ring|]); reflexivity.
Qed.

Definition known (e : element) : Prop := surface_kind e \/ volume_kind e.
Lemma triangle_nodes_range e f i : known e -> (f < number_of_groups e)%nat -> In i (face_triangles e f) -> (i < NumberOfNodes e)%nat.
Proof.
  intros [H|H] Hf Hi; destruct H as [<-|[<-|[<-|[<-|[]]]]]; cbn in Hf;
  do 6 (destruct f as [|f]; [cbn in Hi; repeat (destruct Hi as [<-|Hi]; [cbn; lia|]); contradiction|]; try lia).
Qed.

Lemma triangulate_moved D e s A t nodes f : (D = 2 \/ D = 3)%nat -> known e -> (f < number_of_groups e)%nat -> table D D A -> length t = D -> table (NumberOfNodes e) D nodes ->
  triangulate_face D e (scaled_nodes D e s (map (affine_map A t) nodes)) f =
  map (affine_map (lift_matrix D A) (lift_vector D t)) (triangulate_face D e (scaled_nodes D e s nodes) f).
Proof.
  intros HD HK Hf TA Lt T. unfold triangulate_face. rewrite map_map. apply map_ext_in. intros i Hi.
  pose proof (triangle_nodes_range e f i HK Hf Hi) as Hn. rewrite scaled_moved by assumption.
  assert (Ls : length (scaled_nodes D e s nodes) = NumberOfNodes e) by (rewrite scaled_is_towards, map_length; exact (proj1 T)).
  rewrite (nth_map_lt _ []) by (rewrite Ls; exact Hn). apply emplace_moved; try assumption.
  rewrite scaled_is_towards, (nth_map_lt _ []) by (rewrite (proj1 T); exact Hn).
  assert (Lp : length (nth i nodes []) = D) by (apply (proj1 (Forall_forall _ _) (proj2 T)); apply nth_In; rewrite (proj1 T); exact Hn).
  rewrite towards_length by (rewrite world_length; exact Lp). apply world_length.
Qed.

Lemma nodes_at_moved (g : list R -> list R) x row : Forall (fun i => (i < length x)%nat) row -> nodes_at (map g x) row = map g (nodes_at x row).
Proof. intros F. unfold nodes_at. rewrite map_map. apply map_ext_in. intros i Hi. apply nth_map_lt. exact (proj1 (Forall_forall _ _) F i Hi). Qed.

Lemma drawable_known d : drawable d -> known (kind d) /\ (dim d = 2 \/ dim d = 3)%nat.
Proof. intros [[H D]|[H D]]; split; try (right; exact H); try (left; exact H); tauto. Qed.

Lemma draw_empty show d s x : connectivity d = [] -> draw show d s x = Some [].
Proof. intros E. unfold draw. rewrite E. destruct show; reflexivity. Qed.
Lemma draw_hidden d s x : draw false d s x = Some [].
Proof. reflexivity. Qed.

Lemma the_calls_moved d s A t x : drawable d -> placed (dim d) (NumberOfNodes (kind d)) (connectivity d) x ->
  table (dim d) (dim d) A -> length t = dim d ->
  the_calls d s (map (affine_map A t) x) = moved (lift_matrix (dim d) A) (lift_vector (dim d) t) (the_calls d s x).
Proof.
  intros DR P TA Lt. destruct (drawable_known d DR) as [HK HD]. unfold the_calls, moved. rewrite map_map. apply map_ext_in. intros f Hf. apply in_seq in Hf. cbn [vertices color]. f_equal.
  rewrite !flat_map_concat_map, concat_map, map_map. f_equal. apply map_ext_in. intros row Hr. unfold face_points.
  rewrite nodes_at_moved by exact (proj2 (proj1 (Forall_forall _ _) (proj1 P) row Hr)).
  apply triangulate_moved; try assumption; [lia|]. exact (placed_table _ _ _ _ _ P Hr).
Qed.

(** ** Corners *)

Lemma corners_of_triangles e f : known e -> (f < number_of_groups e)%nat ->
  (forall i, In i (face_triangles e f) <-> In i (corners_of_face e f)) /\ NoDup (corners_of_face e f) /\
  length (face_triangles e f) = (3 * (length (corners_of_face e f) - 2))%nat /\ (forall i, In i (corners_of_face e f) -> (i < number_of_corners e)%nat).
Proof.
  intros [H|H] Hf; destruct H as [<-|[<-|[<-|[<-|[]]]]]; cbn in Hf;
  do 6 (destruct f as [|f]; [cbn; split; [intros i; tauto|]; split; [repeat constructor; cbn; intuition lia|]; split; [reflexivity|]; intros i Hi; repeat (destruct Hi as [<-|Hi]; [lia|]); contradiction|]; try lia).
Qed.
Lemma corners_are_nodes e : (number_of_corners e <= NumberOfNodes e)%nat.
Proof. destruct e; cbn; lia. Qed.
