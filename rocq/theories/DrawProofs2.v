(** Proofs about what is drawn (C94): closed surfaces, volumes and areas. *)

From Coq Require Import ZArith Reals Lra Lia.
From Coquelicot Require Import Coquelicot.
From Coq Require Import List Arith Bool.
From Verif Require Import GridGeoModel ShapeModel ShapeSpec Sums ShapeProofs ShapeFieldProofs ShapeGaussProofs LinAlg LinAlgProofs RectSpec NewtonLocalProofs BarycentricModel DrawModel DrawSpec DrawProofs.
Import ListNotations.
Open Scope R_scope.

Definition volume_kind (e : element) : Prop := In e [Tetrahedron_Linear; Tetrahedron_Quadratic; Hexahedron_Linear; Hexahedron_Quadratic].

Lemma element_closed e pts w : volume_kind e -> (forall p q, w p q = - w q p) -> Rsum (map (around w) (element_triangles 3 e pts)) = 0.
Proof.
  intros H W. unfold element_triangles.
  destruct H as [<-|[<-|[<-|[<-|[]]]]]; cbn -[emplace]; 
  repeat match goal with |- context [emplace 3 (nth ?k pts [])] => let q := fresh "q" in set (q := emplace 3 (nth k pts [])); clearbody q end;
  repeat match goal with |- context [w ?a ?b] => lazymatch goal with |- context [w b a] => rewrite (W a b) end end; ring.
Qed.

(** ** The points drawn *)

Lemma nth_scaled D e s nodes i : (i < length nodes)%nat ->
  nth i (scaled_nodes D e s nodes) [] =
  let c := world_coordinates D e nodes (center_local e) in vadd c (vscale s (vminus (nth i nodes []) c)).
Proof.
  intros Hi. unfold scaled_nodes. set (c := world_coordinates D e nodes (center_local e)).
  set (g := fun p => vadd c (vscale s (vminus p c))).
  rewrite (nth_indep _ [] (g [])) by (rewrite map_length; exact Hi).
  rewrite map_nth. reflexivity.
Qed.
Lemma center_dimension e : length (center_local e) = CanonicalDimension e.
Proof. destruct e; reflexivity. Qed.
Lemma canonical_dimension e i : (i < NumberOfNodes e)%nat -> length (nth i (canonical_nodes e) []) = CanonicalDimension e.
Proof. intros Hi. destruct e; do 20 (destruct i as [|i]; [try reflexivity; cbn in Hi; lia|]); cbn in Hi; lia. Qed.

Section Straight.
Context (D : nat) (e : element) (nodes : list (list R)) (x0 : list R) (E : list (list R)) (s : R).
Hypothesis T : table (NumberOfNodes e) D nodes.
Hypothesis AF : affine_element D e nodes x0 E.

Lemma scaled_affine i : (i < NumberOfNodes e)%nat ->
  nth i (scaled_nodes D e s nodes) [] =
  let c := vadd x0 (matvec E (center_local e)) in vadd c (vscale s (vminus (vadd x0 (matvec E (nth i (canonical_nodes e) []))) c)).
Proof.
  intros Hi. rewrite nth_scaled by (rewrite (proj1 T); exact Hi). rewrite <- (world_at_node e D nodes i T Hi).
  destruct AF as (_ & _ & W). rewrite !W by (apply center_dimension || apply canonical_dimension; exact Hi). reflexivity.
Qed.
Lemma measure_affine : measure D e nodes = det E * reference_measure e.
Proof.
  unfold measure, quadrature. rewrite <- weights_sum.
  rewrite (Rsum_ext _ _ (fun g => det E * snd g)).
  2:{ intros g Hg. rewrite (jacobian_affine D e nodes x0 E) by (exact T || exact AF || (clear - Hg; destruct e; cbn in Hg; repeat (destruct Hg as [<-|Hg]; [reflexivity|]); contradiction)).
      reflexivity. }
  rewrite Rsum_scal_l. reflexivity.
Qed.
End Straight.

Ltac list3 l := destruct l as [|?x [|?x [|?x [|? ?]]]]; try discriminate.
Ltac list2 l := destruct l as [|?x [|?x [|? ?]]]; try discriminate.
Lemma explicit33 E : table 3 3 E -> exists a b c d e f g h i, E = [[a; b; c]; [d; e; f]; [g; h; i]].
Proof.
  intros [L F]. destruct E as [|r0 [|r1 [|r2 [|]]]]; try discriminate.
  apply Forall_cons_iff in F. destruct F as [L0 F]. apply Forall_cons_iff in F. destruct F as [L1 F]. apply Forall_cons_iff in F. destruct F as [L2 _].
  list3 r0. list3 r1. list3 r2. do 9 eexists. reflexivity.
Qed.
Lemma explicit22 E : table 2 2 E -> exists a b c d, E = [[a; b]; [c; d]].
Proof.
  intros [L F]. destruct E as [|r0 [|r1 [|]]]; try discriminate.
  apply Forall_cons_iff in F. destruct F as [L0 F]. apply Forall_cons_iff in F. destruct F as [L1 _].
  list2 r0. list2 r1. do 4 eexists. reflexivity.
Qed.
Lemma explicit3 (x : list R) : length x = 3%nat -> exists a b c, x = [a; b; c].
Proof. intros L. list3 x. do 3 eexists. reflexivity. Qed.
Lemma explicit2 (x : list R) : length x = 2%nat -> exists a b, x = [a; b].
Proof. intros L. list2 x. do 2 eexists. reflexivity. Qed.

Lemma element_volume e nodes x0 E s : volume_kind e -> table (NumberOfNodes e) 3 nodes -> affine_element 3 e nodes x0 E ->
  Rsum (map (fun t => det t / 6) (element_triangles 3 e (scaled_nodes 3 e s nodes))) = s ^ 3 * measure 3 e nodes.
Proof.
  intros H T AF. rewrite (measure_affine 3 e nodes x0 E T AF). pose proof (scaled_affine 3 e nodes x0 E s T AF) as SA. cbv zeta in SA.
  destruct AF as (TE & L0 & _). clear T. 
  assert (TE' : table 3 3 E) by (destruct H as [<-|[<-|[<-|[<-|[]]]]]; exact TE).
  destruct (explicit33 E TE') as (a & b & c & d & f & g & h & i & j & ->). destruct (explicit3 x0 L0) as (y0 & y1 & y2 & ->). clear TE TE' L0.
  remember (scaled_nodes 3 e s nodes) as pts eqn:EP. clear EP nodes.
  unfold element_triangles.
  destruct H as [<-|[<-|[<-|[<-|[]]]]]; cbn -[emplace det]; unfold emplace; cbn [Nat.eqb].
  all: rewrite ?(SA 0%nat), ?(SA 1%nat), ?(SA 2%nat), ?(SA 3%nat), ?(SA 4%nat), ?(SA 5%nat), ?(SA 6%nat), ?(SA 7%nat) by (cbn; lia); clear SA.
  all: cbn -[Rplus Rmult Rminus Ropp Rdiv Rinv IZR pow].
  all: field.
Qed.

(** ** The triangles of a volume are turned to the outside *)

Lemma element_outward e nodes x0 E s t : volume_kind e -> table (NumberOfNodes e) 3 nodes -> affine_element 3 e nodes x0 E -> 0 < s -> 0 < det E ->
  In t (element_triangles 3 e (scaled_nodes 3 e s nodes)) -> faces_away_from (world_coordinates 3 e nodes (center_local e)) t.
Proof.
  intros H T AF Hs HE. pose proof (scaled_affine 3 e nodes x0 E s T AF) as SA. cbv zeta in SA.
  destruct AF as (TE & L0 & W). rewrite (W (center_local e) (center_dimension e)). clear T W.
  assert (TE' : table 3 3 E) by (destruct H as [<-|[<-|[<-|[<-|[]]]]]; exact TE).
  destruct (explicit33 E TE') as (a & b & c & d & f & g & h & i & j & ->). destruct (explicit3 x0 L0) as (y0 & y1 & y2 & ->). clear TE TE' L0.
  remember (scaled_nodes 3 e s nodes) as pts eqn:EP. clear EP nodes.
  assert (P : 0 < s ^ 3 * det [[a; b; c]; [d; f; g]; [h; i; j]]) by (apply Rmult_lt_0_compat; [apply pow_lt; exact Hs|exact HE]).
  cbn [det] in P, HE.
  assert (K4 : forall X, X = 4 * (s ^ 3 * (a * (f * j - g * i) - b * (d * j - g * h) + c * (d * i - f * h))) -> 0 < X) by (intros X ->; lra).
  assert (K1 : forall X, X = / 4 * (s ^ 3 * (a * (f * j - g * i) - b * (d * j - g * h) + c * (d * i - f * h))) -> 0 < X) by (intros X ->; lra).
  clear P HE Hs.
  unfold element_triangles. unfold faces_away_from.
  destruct H as [<-|[<-|[<-|[<-|[]]]]]; cbn -[emplace In Rplus Rmult Rminus Ropp Rdiv Rinv IZR pow]; unfold emplace; cbn [Nat.eqb];
  rewrite ?(SA 0%nat), ?(SA 1%nat), ?(SA 2%nat), ?(SA 3%nat), ?(SA 4%nat), ?(SA 5%nat), ?(SA 6%nat), ?(SA 7%nat) by (cbn; lia); clear SA; intros HI.
  1, 2: repeat (destruct HI as [<-|HI]; [cbn -[Rplus Rmult Rminus Ropp Rdiv Rinv IZR pow]; apply K1; field|]); contradiction.
  all: repeat (destruct HI as [<-|HI]; [cbn -[Rplus Rmult Rminus Ropp Rdiv Rinv IZR pow]; apply K4; ring|]); contradiction.
Qed.

(** ** Areas *)

Definition triangle_area (t : list (list R)) : R := match t with [p; q; r] => nth 2 (vcross (vminus q p) (vminus r p)) 0 / 2 | _ => 0 end.
Definition surface_kind (e : element) : Prop := In e [Triangle_Linear; Triangle_Quadratic; Quad_Linear; Quad_Quadratic].

Lemma element_area e nodes x0 E s : surface_kind e -> table (NumberOfNodes e) 2 nodes -> affine_element 2 e nodes x0 E ->
  Rsum (map triangle_area (element_triangles 2 e (scaled_nodes 2 e s nodes))) = s ^ 2 * measure 2 e nodes.
Proof.
  intros H T AF. rewrite (measure_affine 2 e nodes x0 E T AF). pose proof (scaled_affine 2 e nodes x0 E s T AF) as SA. cbv zeta in SA.
  destruct AF as (TE & L0 & _). clear T. 
  assert (TE' : table 2 2 E) by (destruct H as [<-|[<-|[<-|[<-|[]]]]]; exact TE).
  destruct (explicit22 E TE') as (a & b & c & d & ->). destruct (explicit2 x0 L0) as (y0 & y1 & ->). clear TE TE' L0.
  remember (scaled_nodes 2 e s nodes) as pts eqn:EP. clear EP nodes.
  unfold element_triangles, triangle_area.
  destruct H as [<-|[<-|[<-|[<-|[]]]]]; cbn -[emplace]; unfold emplace; cbn [Nat.eqb].
  all: rewrite ?(SA 0%nat), ?(SA 1%nat), ?(SA 2%nat), ?(SA 3%nat) by (cbn; lia); clear SA.
  all: cbn -[Rplus Rmult Rminus Ropp Rdiv Rinv IZR pow].
  all: field.
Qed.

Lemma quad_area nodes s : table 4 2 nodes ->
  Rsum (map triangle_area (element_triangles 2 Quad_Linear (scaled_nodes 2 Quad_Linear s nodes))) = s ^ 2 * measure 2 Quad_Linear nodes.
Proof.
  intros [L F]. destruct nodes as [|p0 [|p1 [|p2 [|p3 [|]]]]]; try discriminate.
  repeat (apply Forall_cons_iff in F; destruct F as [? F]). list2 p0. list2 p1. list2 p2. list2 p3. clear.
  unfold measure, quadrature, triangle_area. cbn -[Rplus Rmult Rminus Ropp Rdiv Rinv IZR pow g3 neg_g3].
  rewrite ?neg_g3. fold g3. field.
Qed.
