(** Proofs about what is drawn (C94): convex hulls, curved sides, and the two other force fields. *)

From Coq Require Import ZArith Reals Lra Lia.
From Coquelicot Require Import Coquelicot.
From Coq Require Import List Arith Bool.
From Verif Require Import GridGeoModel ShapeModel ShapeSpec Sums ShapeProofs ShapeFieldProofs ShapeGaussProofs LinAlg LinAlgProofs RectSpec NewtonLocalProofs BarycentricModel DrawModel DrawSpec DrawProofs DrawProofs2 DrawProofs3.
Import ListNotations.
Open Scope R_scope.

(** ** What is drawn of a face *)
Lemma face_point D e s nodes i : table (NumberOfNodes e) D nodes -> (i < NumberOfNodes e)%nat ->
  nth i (scaled_nodes D e s nodes) [] = towards s (world_coordinates D e nodes (center_local e)) (nth i nodes []) /\ length (nth i (scaled_nodes D e s nodes) []) = D.
Proof.
  intros T Hi. rewrite scaled_is_towards, (nth_map_lt _ []) by (rewrite (proj1 T); exact Hi). split; [reflexivity|].
  rewrite towards_length; [apply world_length|]. rewrite world_length. apply (proj1 (Forall_forall _ _) (proj2 T)). apply nth_In. rewrite (proj1 T). exact Hi.
Qed.

(** ** Convex hulls *)
Lemma center_weights e : linear_kind e -> Forall (fun l => 0 <= l) (L e (center_local e)).
Proof. intros [<-|[<-|[<-|[<-|[]]]]]; cbv -[Rle Rplus Rmult Rminus Ropp Rdiv Rinv IZR]; repeat (apply Forall_cons; [lra|]); apply Forall_nil. Qed.

Lemma towards_hull D e s nodes i : linear_kind e -> (D = 2 \/ D = 3)%nat -> 0 <= s <= 1 -> table (NumberOfNodes e) D nodes -> (i < NumberOfNodes e)%nat ->
  in_hull 3 (map (in_space D) nodes) (in_space D (towards s (world_coordinates D e nodes (center_local e)) (nth i nodes []))).
Proof.
  intros HL HD Hs T Hi. set (n := NumberOfNodes e) in *. set (Lc := L e (center_local e)).
  assert (LL : length Lc = n) by apply length_L.
  assert (PU : Rsum Lc = 1) by (apply partition_of_unity, center_dimension).
  pose proof (center_weights e HL) as NN. fold Lc in NN.
  assert (Lq : forall j, (j < n)%nat -> length (nth j nodes []) = D) by (intros j Hj; apply (proj1 (Forall_forall _ _) (proj2 T)); apply nth_In; rewrite (proj1 T); exact Hj).
  set (c := world_coordinates D e nodes (center_local e)).
  assert (Lcn : length c = D) by apply world_length.
  assert (Lt : length (towards s c (nth i nodes [])) = D) by (rewrite towards_length; [exact Lcn|rewrite Lcn; apply Lq; exact Hi]).
  exists (map (fun j => (1 - s) * nth j Lc 0 + s * (if Nat.eqb i j then 1 else 0)) (seq 0 n)).
  split; [rewrite !map_length, seq_length; symmetry; exact (proj1 T)|].
  split.
  { apply Forall_forall. intros w Hw. apply in_map_iff in Hw. destruct Hw as (j & <- & Hj). apply in_seq in Hj.
    assert (0 <= nth j Lc 0) by (apply (proj1 (Forall_forall _ _) NN); apply nth_In; rewrite LL; lia).
    assert (0 <= (1 - s) * nth j Lc 0) by (apply Rmult_le_pos; lra). destruct (Nat.eqb i j); lra. }
  split.
  { rewrite Rsum_plus, !Rsum_scal_l. rewrite (Rsum_delta (fun _ => 1)) by exact Hi.
    assert (X : map (fun j => nth j Lc 0) (seq 0 n) = Lc) by (rewrite <- LL; apply map_nth_seq). rewrite X, PU. ring. }
  split; [unfold in_space; destruct HD as [-> | ->]; cbn [Nat.eqb]; rewrite ?app_length, Lt; reflexivity|].
  assert (CO : forall k, (k < D)%nat -> nth k (towards s c (nth i nodes [])) 0 =
     Rsum (map (fun j => ((1 - s) * nth j Lc 0 + s * (if Nat.eqb i j then 1 else 0)) * nth k (nth j nodes []) 0) (seq 0 n))).
  { intros k Hk. rewrite nth_towards by (rewrite Lcn; first [exact Hk | apply Lq; exact Hi]).
    unfold c, world_coordinates, interpolate. rewrite nth_map_seq_d by exact Hk. fold Lc. rewrite (map2_seq _ _ _ [] 0 n) by (exact (proj1 T) || exact LL).
    rewrite (Rsum_ext _ (fun j => ((1 - s) * nth j Lc 0 + s * (if Nat.eqb i j then 1 else 0)) * nth k (nth j nodes []) 0)
      (fun j => (1 - s) * (nth k (nth j nodes []) 0 * nth j Lc 0) + s * (if Nat.eqb i j then nth k (nth j nodes []) 0 else 0))).
    2:{ intros j _. destruct (Nat.eqb i j); ring. }
    rewrite Rsum_plus, !Rsum_scal_l. rewrite (Rsum_delta (fun j => nth k (nth j nodes []) 0)) by exact Hi. ring. }
  intros k Hk. rewrite (map2_seq _ _ (fun w q => w * nth k q 0) 0 [] n) by (rewrite !map_length, ?seq_length; reflexivity || exact (proj1 T)).
  rewrite (Rsum_ext _ _ (fun j => ((1 - s) * nth j Lc 0 + s * (if Nat.eqb i j then 1 else 0)) * nth k (in_space D (nth j nodes [])) 0)).
  2:{ intros j Hj. apply in_seq in Hj. rewrite nth_map_seq_d by lia. rewrite (nth_map_lt _ []) by (rewrite (proj1 T); lia). reflexivity. }
  unfold in_space. destruct HD as [E | E]; rewrite E in *; cbn [Nat.eqb].
  - destruct (Nat.lt_ge_cases k 2) as [H|H].
    + rewrite app_nth1 by lia. rewrite CO by exact H. apply Rsum_ext. intros j Hj. apply in_seq in Hj. rewrite app_nth1 by (rewrite Lq; lia). reflexivity.
    + replace k with 2%nat by lia. rewrite app_nth2 by lia. rewrite Lt. cbn [Nat.sub nth]. symmetry. apply Rsum_zero. intros j Hj. apply in_seq in Hj. rewrite app_nth2 by (rewrite Lq; lia). rewrite Lq by lia. cbn [Nat.sub nth]. ring.
  - apply CO. exact Hk.
Qed.

(** ** The two other force fields *)
Lemma push_loop faces (point : list (list R) -> list R -> list R) x : forall rows g, length g = length faces ->
  fold_left (fun points row =>
    let nodes := map (fun i => nth i x []) row in
    map (fun k => nth k points [] ++ map (fun i => point nodes (nth i nodes [])) (nth k faces [])) (seq 0 (length faces))) rows g =
  map (fun k => nth k g [] ++ flat_map (fun row => map (fun i => point (nodes_at x row) (nth i (nodes_at x row) [])) (nth k faces [])) rows) (seq 0 (length faces)).
Proof.
  induction rows as [|row rows IH]; intros g Lg.
  - cbn [fold_left flat_map]. apply (list_eq_nth _ []); [rewrite map_length, seq_length; exact Lg|]. intros i Hi. rewrite Lg in Hi.
    rewrite nth_map_seq_d by exact Hi. rewrite app_nil_r. reflexivity.
  - cbn [fold_left]. cbv zeta. rewrite IH by (rewrite map_length, seq_length; reflexivity). apply map_ext_in. intros k Hk. apply in_seq in Hk.
    cbn [flat_map]. rewrite app_assoc. f_equal. rewrite nth_map_seq_d by lia. reflexivity.
Qed.
Definition pushed (faces : list (list nat)) (point : list (list R) -> list R -> list R) (x : list (list R)) (rows : list (list nat)) (k : nat) : list (list R) :=
  flat_map (fun row => map (fun i => point (nodes_at x row) (nth i (nodes_at x row) [])) (nth k faces [])) rows.
Lemma push_elements_nth faces point x rows k : (k < length faces)%nat -> nth k (push_elements faces point x rows) [] = pushed faces point x rows k.
Proof. intros Hk. unfold push_elements. rewrite push_loop by apply repeat_length. rewrite nth_map_seq_d by exact Hk. rewrite nth_repeat. reflexivity. Qed.

Definition tetrahedron_calls (x : list (list R)) (rows : list (list nat)) : list drawing_call :=
  map (fun k => {| vertices := pushed tetrahedron_faces tetrahedron_point x rows k; color := nth k tetrahedron_colors [] |}) (seq 0 4).
Definition hexahedron_calls (x : list (list R)) (rows : list (list nat)) : list drawing_call :=
  map (fun k => {| vertices := pushed hexahedron_faces hexahedron_point x rows k; color := nth k hexahedron_colors [] |}) (seq 0 6) ++
  map (fun k => {| vertices := pushed hexahedron_faces hexahedron_point x rows k; color := ignored_color |}) (seq 0 6).

Lemma draw_tetrahedra_calls D x rows : placed D 4 rows x -> draw_tetrahedra true true x rows = Some (tetrahedron_calls x rows).
Proof.
  intros P. unfold draw_tetrahedra, in_range. cbn [negb]. rewrite (proj1 (in_range_true x rows) (placed_range _ _ _ _ P)). cbn [negb]. f_equal.
  apply map_ext_in. intros k Hk. apply in_seq in Hk. rewrite push_elements_nth by (cbn; lia). reflexivity.
Qed.
Lemma draw_hexahedra_calls D x rows : placed D 8 rows x -> draw_hexahedra true true x rows = Some (hexahedron_calls x rows).
Proof.
  intros P. unfold draw_hexahedra, in_range. cbn [negb]. rewrite (proj1 (in_range_true x rows) (placed_range _ _ _ _ P)). cbn [negb]. f_equal.
  unfold hexahedron_calls. f_equal; apply map_ext_in; intros k Hk; apply in_seq in Hk; rewrite push_elements_nth by (cbn; lia); reflexivity.
Qed.

Lemma explicit_table3 n nodes : table n 3 nodes -> nodes = map (fun i => [nth 0 (nth i nodes []) 0; nth 1 (nth i nodes []) 0; nth 2 (nth i nodes []) 0]) (seq 0 n).
Proof.
  intros [L F]. apply (list_eq_nth _ []); [rewrite map_length, seq_length; exact L|]. intros i Hi. rewrite nth_map_seq_d by lia.
  assert (Lp : length (nth i nodes []) = 3%nat) by (apply (proj1 (Forall_forall _ _) F); apply nth_In; exact Hi).
  destruct (explicit3 _ Lp) as (a & b & c & E). rewrite E. reflexivity.
Qed.

Lemma hexahedron_point_towards nodes p : table 8 3 nodes -> length p = 3%nat ->
  hexahedron_point nodes p = towards (85 / 100) (world_coordinates 3 Hexahedron_Linear nodes (center_local Hexahedron_Linear)) p.
Proof.
  intros T Lp. rewrite (explicit_table3 8 nodes T). cbn [seq map].
  repeat match goal with |- context [nth ?k (nth ?i nodes []) 0] => let q := fresh "q" in set (q := nth k (nth i nodes []) 0); clearbody q end.
  destruct (explicit3 p Lp) as (a & b & c & ->). unfold hexahedron_point, percentage, hexahedron_center, towards. clear.
  cbn -[Rplus Rmult Rminus Ropp Rdiv Rinv IZR]. repeat (apply f_equal2; [field|]). reflexivity.
Qed.
Lemma tetrahedron_point_towards nodes p : table 4 3 nodes -> length p = 3%nat ->
  tetrahedron_point nodes p = vscale (20000010 / 20000000) (towards (2 / 3) (world_coordinates 3 Tetrahedron_Linear nodes (center_local Tetrahedron_Linear)) p).
Proof.
  intros T Lp. rewrite (explicit_table3 4 nodes T). cbn [seq map].
  repeat match goal with |- context [nth ?k (nth ?i nodes []) 0] => let q := fresh "q" in set (q := nth k (nth i nodes []) 0); clearbody q end.
  destruct (explicit3 p Lp) as (a & b & c & ->). unfold tetrahedron_point, tetrahedron_center, towards. clear.
  cbn -[Rplus Rmult Rminus Ropp Rdiv Rinv IZR]. repeat (apply f_equal2; [field|]). reflexivity.
Qed.

Lemma map2_map_map_app {A B} (f g : A -> list B) : forall l, map2 (@app B) (map f l) (map g l) = map (fun a => f a ++ g a) l.
Proof. induction l as [|a l IH]; cbn; [reflexivity|]. rewrite IH. reflexivity. Qed.

Lemma row_point x row i : (i < length row)%nat -> nth i (nodes_at x row) [] = nth (nth i row O) x [].
Proof. intros H. unfold nodes_at. rewrite (nth_map_lt _ O) by exact H. reflexivity. Qed.

Section Pushed.
Context (n : nat) (faces : list (list nat)) (point : list (list R) -> list R -> list R).
Hypothesis FN : forall i, (exists f, In f faces /\ In i f) <-> (i < n)%nat.
Lemma pushed_vertices x rows v : placed 3 n rows x ->
  (exists k, (k < length faces)%nat /\ In v (pushed faces point x rows k)) <->
  exists row i, In row rows /\ (i < n)%nat /\ v = point (nodes_at x row) (nth (nth i row O) x []).
Proof.
  intros P. unfold pushed. split.
  - intros (k & Hk & Hv). apply in_flat_map in Hv. destruct Hv as (row & Hr & Hv). apply in_map_iff in Hv. destruct Hv as (i & <- & Hi).
    assert (Hn : (i < n)%nat) by (apply FN; exists (nth k faces []); split; [apply nth_In; exact Hk|exact Hi]).
    exists row, i. split; [exact Hr|]. split; [exact Hn|]. rewrite row_point; [reflexivity|].
    rewrite (proj1 (proj1 (Forall_forall _ _) (proj1 P) row Hr)). exact Hn.
  - intros (row & i & Hr & Hn & ->). destruct (proj2 (FN i) Hn) as (f & Hf & Hi). destruct (In_nth _ _ [] Hf) as (k & Hk & Ek).
    exists k. split; [exact Hk|]. apply in_flat_map. exists row. split; [exact Hr|]. rewrite Ek. apply in_map_iff. exists i. split; [|exact Hi].
    rewrite row_point; [reflexivity|]. rewrite (proj1 (proj1 (Forall_forall _ _) (proj1 P) row Hr)). exact Hn.
Qed.
Lemma pushed_moved (g h : list R -> list R) x rows k : placed 3 n rows x -> (k < length faces)%nat ->
  (forall nodes p, table n 3 nodes -> length p = 3%nat -> point (map g nodes) (g p) = h (point nodes p)) ->
  pushed faces point (map g x) rows k = map h (pushed faces point x rows k).
Proof.
  intros P Hk G. unfold pushed. rewrite !flat_map_concat_map, concat_map, map_map. f_equal. apply map_ext_in. intros row Hr.
  rewrite map_map. apply map_ext_in. intros i Hi.
  assert (Hn : (i < n)%nat) by (apply FN; exists (nth k faces []); split; [apply nth_In; exact Hk|exact Hi]).
  pose proof (placed_table _ _ _ _ row P Hr) as T.
  rewrite nodes_at_moved by exact (proj2 (proj1 (Forall_forall _ _) (proj1 P) row Hr)).
  rewrite (nth_map_lt _ []) by (rewrite (proj1 T); exact Hn). apply G; [exact T|].
  apply (proj1 (Forall_forall _ _) (proj2 T)). apply nth_In. rewrite (proj1 T). exact Hn.
Qed.
End Pushed.

Lemma hexahedron_faces_nodes i : (exists f, In f hexahedron_faces /\ In i f) <-> (i < 8)%nat.
Proof.
  split.
  - intros (f & Hf & Hi). unfold hexahedron_faces in Hf. repeat (destruct Hf as [<-|Hf]; [repeat (destruct Hi as [<-|Hi]; [lia|]); contradiction|]). contradiction.
  - intros H. do 4 (destruct i as [|i]; [exists [0; 1; 2; 0; 2; 3]%nat; split; [cbn; tauto|cbn; tauto]|]).
    do 4 (destruct i as [|i]; [exists [4; 5; 6; 4; 6; 7]%nat; split; [cbn; tauto|cbn; tauto]|]). lia.
Qed.
Lemma tetrahedron_faces_nodes i : (exists f, In f tetrahedron_faces /\ In i f) <-> (i < 4)%nat.
Proof.
  split.
  - intros (f & Hf & Hi). unfold tetrahedron_faces in Hf. repeat (destruct Hf as [<-|Hf]; [repeat (destruct Hi as [<-|Hi]; [lia|]); contradiction|]). contradiction.
  - intros H. do 3 (destruct i as [|i]; [exists [0; 1; 2]%nat; split; [cbn; tauto|cbn; tauto]|]).
    destruct i as [|i]; [exists [1; 2; 3]%nat; split; [cbn; tauto|cbn; tauto]|]. lia.
Qed.

Lemma hexahedron_calls_vertices x rows v : In v (flat_map vertices (hexahedron_calls x rows)) <-> exists k, (k < length hexahedron_faces)%nat /\ In v (pushed hexahedron_faces hexahedron_point x rows k).
Proof.
  rewrite in_flat_map. split.
  - intros (c & Hc & Hv). unfold hexahedron_calls in Hc. apply in_app_or in Hc. destruct Hc as [Hc|Hc]; apply in_map_iff in Hc; destruct Hc as (k & <- & Hk); apply in_seq in Hk; exists k; (split; [cbn; lia|exact Hv]).
  - intros (k & Hk & Hv). eexists. split; [apply in_or_app; left; apply in_map_iff; exists k; split; [reflexivity|apply in_seq; cbn in Hk; lia]|exact Hv].
Qed.
Lemma tetrahedron_calls_vertices x rows v : In v (flat_map vertices (tetrahedron_calls x rows)) <-> exists k, (k < length tetrahedron_faces)%nat /\ In v (pushed tetrahedron_faces tetrahedron_point x rows k).
Proof.
  rewrite in_flat_map. split.
  - intros (c & Hc & Hv). apply in_map_iff in Hc; destruct Hc as (k & <- & Hk); apply in_seq in Hk; exists k; (split; [cbn; lia|exact Hv]).
  - intros (k & Hk & Hv). eexists. split; [apply in_map_iff; exists k; split; [reflexivity|apply in_seq; cbn in Hk; lia]|exact Hv].
Qed.

Lemma placed_node D n rows x row i : placed D n rows x -> In row rows -> (i < n)%nat -> length (nth (nth i row O) x []) = D.
Proof.
  intros P Hr Hi. pose proof (placed_table _ _ _ _ row P Hr) as T. rewrite <- row_point by (rewrite (proj1 (proj1 (Forall_forall _ _) (proj1 P) row Hr)); exact Hi).
  apply (proj1 (Forall_forall _ _) (proj2 T)). apply nth_In. rewrite (proj1 T). exact Hi.
Qed.
Lemma placed_moved n rows x A t : placed 3 n rows x -> table 3 3 A -> length t = 3%nat -> placed 3 n rows (map (affine_map A t) x).
Proof.
  intros [P F] TA Lt. split.
  - eapply Forall_impl; [|exact P]. intros row [L R]. split; [exact L|]. rewrite map_length. exact R.
  - apply Forall_forall. intros p Hp. apply in_map_iff in Hp. destruct Hp as (q & <- & Hq). apply affine_length; assumption.
Qed.

Lemma hexahedron_point_moved A t nodes p : table 3 3 A -> length t = 3%nat -> table 8 3 nodes -> length p = 3%nat ->
  hexahedron_point (map (affine_map A t) nodes) (affine_map A t p) = affine_map A t (hexahedron_point nodes p).
Proof.
  intros TA Lt T Lp.
  assert (T' : table 8 3 (map (affine_map A t) nodes)).
  { split; [rewrite map_length; exact (proj1 T)|]. apply Forall_forall. intros q Hq. apply in_map_iff in Hq. destruct Hq as (r & <- & _). apply affine_length; assumption. }
  rewrite !hexahedron_point_towards by (assumption || apply affine_length; assumption).
  rewrite (world_affine 3 Hexahedron_Linear) by (assumption || reflexivity). apply (towards_affine 3); try assumption. apply world_length.
Qed.
Lemma vscale_affine k A t p : table 3 3 A -> length t = 3%nat -> length p = 3%nat -> vscale k (affine_map A t p) = affine_map A (vscale k t) (vscale k p).
Proof.
  intros TA Lt Lp. apply (list_eq_nth _ 0); [rewrite vscale_length, !(affine_length 3) by (assumption || (rewrite vscale_length; exact Lt)); reflexivity|].
  rewrite vscale_length, (affine_length 3) by assumption. intros i Hi. rewrite nth_vscale, !(nth_affine 3) by (assumption || (rewrite vscale_length; exact Lt)).
  rewrite nth_vscale, dot_vscale_r. ring.
Qed.
Lemma tetrahedron_point_moved A t nodes p : table 3 3 A -> length t = 3%nat -> table 4 3 nodes -> length p = 3%nat ->
  tetrahedron_point (map (affine_map A t) nodes) (affine_map A t p) = affine_map A (vscale (20000010 / 20000000) t) (tetrahedron_point nodes p).
Proof.
  intros TA Lt T Lp.
  assert (T' : table 4 3 (map (affine_map A t) nodes)).
  { split; [rewrite map_length; exact (proj1 T)|]. apply Forall_forall. intros q Hq. apply in_map_iff in Hq. destruct Hq as (r & <- & _). apply affine_length; assumption. }
  rewrite !tetrahedron_point_towards by (assumption || apply affine_length; assumption).
  rewrite (world_affine 3 Tetrahedron_Linear) by (assumption || reflexivity). rewrite (towards_affine 3) by (assumption || apply world_length).
  apply vscale_affine; try assumption. rewrite towards_length; [apply world_length|rewrite world_length; exact Lp].
Qed.

Lemma hexahedron_calls_moved A t x rows : placed 3 8 rows x -> table 3 3 A -> length t = 3%nat ->
  hexahedron_calls (map (affine_map A t) x) rows = moved A t (hexahedron_calls x rows).
Proof.
  intros P TA Lt. unfold hexahedron_calls, moved. rewrite map_app, !map_map.
  f_equal; apply map_ext_in; intros k Hk; apply in_seq in Hk; cbn [vertices color]; f_equal;
  (apply (pushed_moved 8 hexahedron_faces hexahedron_point hexahedron_faces_nodes); [exact P|cbn; lia|]; intros nodes p T Lp; apply hexahedron_point_moved; assumption).
Qed.
Lemma tetrahedron_calls_moved A t x rows : placed 3 4 rows x -> table 3 3 A -> length t = 3%nat ->
  tetrahedron_calls (map (affine_map A t) x) rows = moved A (vscale (20000010 / 20000000) t) (tetrahedron_calls x rows).
Proof.
  intros P TA Lt. unfold tetrahedron_calls, moved. rewrite map_map.
  apply map_ext_in; intros k Hk; apply in_seq in Hk; cbn [vertices color]; f_equal.
  apply (pushed_moved 4 tetrahedron_faces tetrahedron_point tetrahedron_faces_nodes); [exact P|cbn; lia|]. intros nodes p T Lp. apply tetrahedron_point_moved; assumption.
Qed.

Lemma hexahedron_force_drawing : forall x rows calls, placed 3 8 rows x -> draw_hexahedra true true x rows = Some calls ->
  (forall v, In v (all_vertices calls) <-> exists row i, In row rows /\ (i < 8)%nat /\
     let c := world_coordinates 3 Hexahedron_Linear (nodes_at x row) [0; 0; 0] in v = vadd c (vscale (85 / 100) (vminus (nth (nth i row O) x []) c))) /\
  (forall A t, table 3 3 A -> length t = 3%nat -> draw_hexahedra true true (map (affine_map A t) x) rows = Some (moved A t calls)).
Proof.
  intros x rows calls P E. rewrite (draw_hexahedra_calls 3) in E by exact P. injection E as <-. split.
  - intros v. unfold all_vertices. rewrite hexahedron_calls_vertices, (pushed_vertices 8 hexahedron_faces hexahedron_point hexahedron_faces_nodes) by exact P.
    split; intros (row & i & Hr & Hi & H); exists row, i; (split; [exact Hr|]; split; [exact Hi|]); cbv zeta in *;
    pose proof (hexahedron_point_towards (nodes_at x row) (nth (nth i row O) x []) (placed_table _ _ _ _ row P Hr) (placed_node _ _ _ _ row i P Hr Hi)) as Q;
    unfold towards in Q; cbn [center_local] in Q; congruence.
  - intros A t TA Lt. rewrite (draw_hexahedra_calls 3) by (apply placed_moved; assumption). f_equal. apply hexahedron_calls_moved; assumption.
Qed.
Lemma hexahedron_force_hull : forall x row calls v, placed 3 8 [row] x -> draw_hexahedra true true x [row] = Some calls ->
  In v (all_vertices calls) -> in_hull 3 (nodes_at x row) v.
Proof.
  intros x row calls v P E Hv. destruct (hexahedron_force_drawing x [row] calls P E) as [I _]. apply I in Hv.
  destruct Hv as (r & i & [<-|[]] & Hi & H). cbv zeta in H. rewrite H. clear H.
  pose proof (placed_table _ _ _ _ row P (or_introl eq_refl)) as T.
  pose proof (towards_hull 3 Hexahedron_Linear (85 / 100) (nodes_at x row) i ltac:(cbn; tauto) (or_intror eq_refl) ltac:(lra) T Hi) as W.
  unfold in_space in W. cbn [Nat.eqb] in W. rewrite map_id in W. rewrite row_point in W by (rewrite (proj1 (proj1 (Forall_forall _ _) (proj1 P) row (or_introl eq_refl))); exact Hi).
  exact W.
Qed.
Lemma tetrahedron_force_drawing : forall x rows calls, placed 3 4 rows x -> draw_tetrahedra true true x rows = Some calls ->
  forall v, In v (all_vertices calls) <-> exists row i, In row rows /\ (i < 4)%nat /\
     let c := world_coordinates 3 Tetrahedron_Linear (nodes_at x row) [1 / 4; 1 / 4; 1 / 4] in
     v = vscale (20000010 / 20000000) (vadd c (vscale (2 / 3) (vminus (nth (nth i row O) x []) c))).
Proof.
  intros x rows calls P E. rewrite (draw_tetrahedra_calls 3) in E by exact P. injection E as <-.
  intros v. unfold all_vertices. rewrite tetrahedron_calls_vertices, (pushed_vertices 4 tetrahedron_faces tetrahedron_point tetrahedron_faces_nodes) by exact P.
  split; intros (row & i & Hr & Hi & H); exists row, i; (split; [exact Hr|]; split; [exact Hi|]); cbv zeta in *;
  pose proof (tetrahedron_point_towards (nodes_at x row) (nth (nth i row O) x []) (placed_table _ _ _ _ row P Hr) (placed_node _ _ _ _ row i P Hr Hi)) as Q;
  unfold towards in Q; cbn [center_local] in Q; congruence.
Qed.
Lemma tetrahedron_force_drift : forall x rows calls A t, placed 3 4 rows x -> rows <> [] -> draw_tetrahedra true true x rows = Some calls ->
  table 3 3 A -> length t = 3%nat ->
  draw_tetrahedra true true (map (affine_map A t) x) rows = Some (moved A (vscale (20000010 / 20000000) t) calls) /\
  (t <> [0; 0; 0] -> draw_tetrahedra true true (map (affine_map A t) x) rows <> Some (moved A t calls)).
Proof.
  intros x rows calls A t P N E TA Lt. rewrite (draw_tetrahedra_calls 3) in E by exact P. injection E as <-.
  rewrite (draw_tetrahedra_calls 3) by (apply placed_moved; assumption). rewrite tetrahedron_calls_moved by assumption. split; [reflexivity|].
  intros NT EQ. injection EQ as EQ. intros. apply NT. clear NT.
  destruct rows as [|row rows]; [congruence|]. pose proof (f_equal (fun l => nth 0 l []) EQ) as Q.
  unfold pushed in Q. cbn [flat_map tetrahedron_faces nth map app] in Q.
  set (v := tetrahedron_point _ _) in Q.
  assert (K : forall i, (i < 3)%nat -> nth i t 0 = 0).
  { intros i Hi. pose proof (f_equal (fun l => nth i l 0) Q) as W. cbv beta in W. rewrite !(nth_affine 3) in W by (assumption || (rewrite vscale_length; exact Lt)).
    rewrite nth_vscale in W. lra. }
  destruct (explicit3 t Lt) as (a & b & c & ->). pose proof (K 0%nat ltac:(lia)). pose proof (K 1%nat ltac:(lia)). pose proof (K 2%nat ltac:(lia)). cbn in *. congruence.
Qed.

Lemma four_points a0 a1 a2 b0 b1 b2 c0 c1 c2 d0 d1 d2 :
  let q0 := [a0; a1; a2] in let q1 := [b0; b1; b2] in let q2 := [c0; c1; c2] in let q3 := [d0; d1; d2] in
  let vs := [q0; q1; q2; q1; q2; q3; q2; q3; q0; q3; q0; q1] in
  0 < det [vminus q1 q0; vminus q2 q0; vminus q3 q0] ->
  exists c t1 t2, in_hull 3 vs c /\ In t1 (triangles vs) /\ In t2 (triangles vs) /\ faces_towards c t1 /\ faces_away_from c t2.
Proof.
  intros q0 q1 q2 q3 vs H. exists [(a0 + b0 + c0 + d0) / 4; (a1 + b1 + c1 + d1) / 4; (a2 + b2 + c2 + d2) / 4], [q0; q1; q2], [q1; q2; q3].
  split.
  { exists (repeat (/ 12) 12). split; [reflexivity|]. split; [repeat (apply Forall_cons; [lra|]); apply Forall_nil|]. split; [cbn; lra|]. split; [reflexivity|].
    intros k Hk. destruct k as [|[|[|k]]]; [| | |lia]; unfold vs, q0, q1, q2, q3; cbn -[Rplus Rmult Rminus Ropp Rdiv Rinv IZR]; lra. }
  split; [left; reflexivity|]. split; [right; left; reflexivity|].
  unfold q0, q1, q2, q3 in *. cbn -[Rplus Rmult Rminus Ropp Rdiv Rinv IZR] in H |- *. clear vs q0 q1 q2 q3.
  match type of H with 0 < ?D => split; [apply (Rle_lt_trans _ (- D / 4)); [right; field|lra]|apply (Rlt_le_trans _ (D / 4)); [lra|right; field]] end.
Qed.

Lemma tetrahedron_force_winding : forall x row calls, placed 3 4 [row] x -> draw_tetrahedra true true x [row] = Some calls ->
  0 < measure 3 Tetrahedron_Linear (nodes_at x row) ->
  exists c t1 t2, in_hull 3 (all_vertices calls) c /\ In t1 (triangles (all_vertices calls)) /\ In t2 (triangles (all_vertices calls)) /\
    faces_towards c t1 /\ faces_away_from c t2.
Proof.
  intros x row calls P E M. rewrite (draw_tetrahedra_calls 3) in E by exact P. injection E as <-.
  pose proof (placed_table _ _ _ _ row P (or_introl eq_refl)) as T.
  unfold tetrahedron_calls, pushed, all_vertices. cbn [flat_map seq map vertices app]. rewrite !app_nil_r.
  unfold measure, quadrature in M.
  remember (nodes_at x row) as nodes eqn:EN. clear EN P.
  rewrite (explicit_table3 4 nodes T) in *. clear T. cbn [seq map] in *.
  repeat match goal with |- context [nth ?k (nth ?i nodes []) 0] => let q := fresh "q" in set (q := nth k (nth i nodes []) 0) in *; clearbody q end.
  clear nodes x row. unfold tetrahedron_faces. cbn [nth map app].
  unfold tetrahedron_point, tetrahedron_center. cbn [vsum fold_left vadd vscale map map2].
  apply four_points. cbn -[Rplus Rmult Rminus Ropp Rdiv Rinv IZR] in M |- *.
  match type of M with 0 < ?D => apply (Rlt_le_trans _ (6 * (666667 / 1000000) * (666667 / 1000000) * (666667 / 1000000) * D)); [lra|right; field] end.
Qed.

Lemma hexahedron_force_winding : forall x row calls, placed 3 8 [row] x -> draw_hexahedra true true x [row] = Some calls ->
  (exists x0 E, affine_element 3 Hexahedron_Linear (nodes_at x row) x0 E) -> 0 < measure 3 Hexahedron_Linear (nodes_at x row) ->
  exists c t1 t2, in_hull 3 (all_vertices calls) c /\ In t1 (triangles (all_vertices calls)) /\ In t2 (triangles (all_vertices calls)) /\
    faces_towards c t1 /\ faces_away_from c t2.
Proof.
  intros x row calls P EQ (x0 & E & AF) M. rewrite (draw_hexahedra_calls 3) in EQ by exact P. injection EQ as <-.
  pose proof (placed_table _ _ _ _ row P (or_introl eq_refl)) as T.
  rewrite (measure_affine 3 Hexahedron_Linear _ x0 E T AF) in M. cbn [reference_measure] in M.
  pose proof (scaled_affine 3 Hexahedron_Linear _ x0 E (85 / 100) T AF) as SA. cbv zeta in SA.
  assert (HP : forall i, (i < 8)%nat -> hexahedron_point (nodes_at x row) (nth i (nodes_at x row) []) =
    let c := vadd x0 (matvec E (center_local Hexahedron_Linear)) in vadd c (vscale (85 / 100) (vminus (vadd x0 (matvec E (nth i (canonical_nodes Hexahedron_Linear) []))) c))).
  { intros i Hi. cbv zeta. rewrite <- (SA i Hi). rewrite hexahedron_point_towards; [|exact T|apply (proj1 (Forall_forall _ _) (proj2 T)); apply nth_In; rewrite (proj1 T); exact Hi].
    symmetry. exact (proj1 (face_point 3 Hexahedron_Linear (85 / 100) _ i T Hi)). }
  clear SA. cbv zeta in HP. destruct AF as (TE & L0 & _). destruct (explicit33 E TE) as (a & b & c & d & e & f & g & h & i & ->). destruct (explicit3 x0 L0) as (y0 & y1 & y2 & ->). clear TE L0.
  set (vs := all_vertices (hexahedron_calls x [row])).
  exists [y0; y1; y2], (map (fun j => hexahedron_point (nodes_at x row) (nth j (nodes_at x row) [])) [0; 1; 2]%nat), (map (fun j => hexahedron_point (nodes_at x row) (nth j (nodes_at x row) [])) [4; 5; 6]%nat).
  split.
  { assert (exists rest, vs = [hexahedron_point (nodes_at x row) (nth 0 (nodes_at x row) [])] ++ 
      map (fun j => hexahedron_point (nodes_at x row) (nth j (nodes_at x row) [])) [1; 2; 0; 2; 3; 4; 5]%nat ++ hexahedron_point (nodes_at x row) (nth 6 (nodes_at x row) []) :: rest) as [rest V] by (eexists; reflexivity).
    exists ([1 / 2] ++ repeat 0 7 ++ 1 / 2 :: repeat 0 (length rest)). split; [rewrite V; cbn; rewrite repeat_length; reflexivity|].
    split; [cbn; repeat (apply Forall_cons; [lra|]); apply Forall_forall; intros w Hw; apply repeat_spec in Hw; lra|].
    assert (Z : Rsum (repeat 0 (length rest)) = 0) by (clear; induction (length rest); cbn; [reflexivity|fold Rsum; unfold Rsum in *; lra]).
    split; [cbn -[Rplus Rmult Rminus Ropp Rdiv Rinv IZR Rsum]; unfold Rsum in *; cbn [fold_right]; rewrite Z; field|]. split; [reflexivity|].
    intros k Hk. rewrite V. cbn [map app repeat map2 Rsum fold_right]. 
    assert (Z2 : fold_right Rplus 0 (map2 (fun w q => w * nth k q 0) (repeat 0 (length rest)) rest) = 0).
    { clear. induction rest as [|r rest IH]; cbn; [reflexivity|]. rewrite IH. ring. }
    rewrite Z2. rewrite (HP 0%nat), (HP 6%nat) by lia. clear.
    destruct k as [|[|[|k]]]; cbn -[Rplus Rmult Rminus Ropp Rdiv Rinv IZR]; try field. }
  split; [left; reflexivity|]. split; [right; right; left; reflexivity|]. cbn [map].
  rewrite !HP by lia. clear - M. cbn [det] in M. unfold faces_towards, faces_away_from.
  assert (K : 0 < 4 * (85 / 100) ^ 3 * (a * (e * i - f * h) - b * (d * i - f * g) + c * (d * h - e * g))) by lra.
  match type of K with 0 < ?D => split; [apply (Rle_lt_trans _ (- D)); [right|lra]|apply (Rlt_le_trans _ D); [lra|right]] end;
  cbn -[Rplus Rmult Rminus Ropp Rdiv Rinv IZR]; field.
Qed.
