(** Proofs for C98. *)

From Coq Require Import ZArith Reals Lra Lia.
From Coquelicot Require Import Coquelicot.
From Coq Require Import List Arith Bool Permutation.
From Flocq Require Import Core.Raux.
From Verif Require Import GridGeoModel ShapeModel ShapeSpec ShapeProofs ShapeFieldProofs LinAlg LinAlgProofs RectModel RectProofs BarycentricModel MappingSpec MappingProofs
  TensorSpec MaterialSpec Sums StabilityProofs2 TractionModel TractionSpec TractionProofs TractionProperties PatchSpec PatchProofs PatchProofs2 LoadSpec.
Import ListNotations.
Open Scope R_scope.

(** Vector element of area at a local point of a surface element. *)
Definition normal_at (e : element) (nodes : list (list R)) (xi : list R) : list R :=
  vcross (column (jacobian 3 e nodes xi) 0) (column (jacobian 3 e nodes xi) 1).
Definition vector_weight (e : element) (nodes : list (list R)) (a k : nat) : R :=
  Rsum (map (fun g => snd g * nth k (normal_at e nodes (fst g)) 0 * nth a (L e (fst g)) 0) (gauss_nodes e)).
Definition surface_shares (e : element) (nodes : list (list R)) (a k : nat) : R :=
  Rsum (map (fun f => nth k (share (fun i => nth i nodes []) (surface_corner e a, f)) 0) (outline_from e a)).

Ltac crunch := cbv -[Rplus Rmult Rminus Ropp Rdiv Rinv IZR].
Ltac list3 := repeat match goal with |- _ :: _ = _ :: _ => apply f_equal2 | |- [] = [] => reflexivity end.
Lemma triangle_shares x0 y0 z0 x1 y1 z1 x2 y2 z2 a k : (a < 3)%nat -> (k < 3)%nat ->
  let nodes := [[x0;y0;z0];[x1;y1;z1];[x2;y2;z2]] in vector_weight Triangle_Linear nodes a k = surface_shares Triangle_Linear nodes a k.
Proof. intros Ha Hk nodes. unfold nodes. do 3 (destruct a as [|a]; [destruct k as [|[|[|]]]; try lia; crunch; field|]). lia. Qed.
Lemma quad_shares x0 y0 z0 x1 y1 z1 x2 y2 z2 x3 y3 z3 a k : (a < 4)%nat -> (k < 3)%nat ->
  let nodes := [[x0;y0;z0];[x1;y1;z1];[x2;y2;z2];[x3;y3;z3]] in vector_weight Quad_Linear nodes a k = surface_shares Quad_Linear nodes a k.
Proof.
  intros Ha Hk nodes. unfold nodes, vector_weight, gauss_nodes, Quad_Linear_gauss. destruct root3 as (s & -> & -> & Hs).
  do 4 (destruct a as [|a]; [destruct k as [|[|[|]]]; try lia; crunch; field [Hs]|]). lia.
Qed.
Lemma straight_shares e nodes a k : e = Triangle_Quadratic \/ e = Quad_Quadratic -> straight_face e nodes -> (a < NumberOfNodes e)%nat -> (k < 3)%nat ->
  vector_weight e nodes a k = surface_shares e nodes a k.
Proof.
  intros He (p & b & c & Lp & Lb & Lc & ->) Ha Hk.
  destruct (length3 p Lp) as (p0 & p1 & p2 & ->), (length3 b Lb) as (b0 & b1 & b2 & ->), (length3 c Lc) as (c0 & c1 & c2 & ->).
  destruct He as [-> | ->]; cbn [NumberOfNodes] in Ha.
  - do 6 (destruct a as [|a]; [destruct k as [|[|[|]]]; try lia; crunch; field|]). lia.
  - unfold vector_weight, gauss_nodes, Quad_Quadratic_gauss. destruct root3 as (s & -> & -> & Hs).
    do 8 (destruct a as [|a]; [destruct k as [|[|[|]]]; try lia; crunch; field [Hs]|]). lia.
Qed.

(** The vector element of area at the integration points of a face is a positive multiple of its normal. *)
Lemma facing_normal e nodes n g : length nodes = NumberOfNodes e -> Forall (fun p => length p = 3%nat) nodes -> length n = 3%nat -> facing e nodes n -> In g (gauss_nodes e) ->
  exists c, 0 <= c /\ normal_at e nodes (fst g) = vscale c n.
Proof.
  intros Ln Fn L3 F Hg. destruct (length3 n L3) as (n0 & n1 & n2 & ->).
  destruct e; try (destruct F; fail); cbn [NumberOfNodes] in Ln.
  - destruct nodes as [|p0 [|p1 [|p2 [|]]]]; try discriminate. repeat (apply Forall_cons_iff in Fn; destruct Fn as [?L Fn]).
    destruct (length3 p0 L) as (x0 & y0 & z0 & ->), (length3 p1 L0) as (x1 & y1 & z1 & ->), (length3 p2 L1) as (x2 & y2 & z2 & ->).
    destruct F as (c & Hc & F). exists c. split; [exact Hc|]. rewrite <- F. cbn in Hg. destruct Hg as [<-|[]].
    cbv -[Rplus Rmult Rminus Ropp Rdiv Rinv IZR]. repeat (f_equal; try field).
  - destruct F as [(p & b & c & Lp & Lb & Lc & ->) (k & Hk & F)]. exists k. split; [exact Hk|]. rewrite <- F. clear F.
    destruct (length3 p Lp) as (p0 & p1 & p2 & ->), (length3 b Lb) as (b0 & b1 & b2 & ->), (length3 c Lc) as (c0 & c1 & c2 & ->).
    cbn in Hg. repeat (destruct Hg as [<-|Hg]; [cbv -[Rplus Rmult Rminus Ropp Rdiv Rinv IZR]; repeat (f_equal; try field)|]). destruct Hg.
  - destruct nodes as [|p0 [|p1 [|p2 [|p3 [|]]]]]; try discriminate. repeat (apply Forall_cons_iff in Fn; destruct Fn as [?L Fn]).
    destruct (length3 p0 L) as (x0 & y0 & z0 & ->), (length3 p1 L0) as (x1 & y1 & z1 & ->), (length3 p2 L1) as (x2 & y2 & z2 & ->), (length3 p3 L2) as (x3 & y3 & z3 & ->).
    destruct F as ((c1 & H1 & F1) & (c2 & H2 & F2) & (c3 & H3 & F3) & (c0 & H0 & F0)). unfold vscale in F0, F1, F2, F3. cbn [nth map] in F0, F1, F2, F3.
    unfold vcross in F0, F1, F2, F3. cbn [vminus map2] in F0, F1, F2, F3.
    injection F0 as F00 F01 F02. injection F1 as F10 F11 F12. injection F2 as F20 F21 F22. injection F3 as F30 F31 F32.
    cbn [gauss_nodes] in Hg. unfold Quad_Linear_gauss in Hg.
    assert (W : exists u v, fst g = [u; v] /\ -1 <= u <= 1 /\ -1 <= v <= 1).
    { assert (S : 1 <= sqrt 3) by (rewrite <- sqrt_1; apply sqrt_le_1; lra).
      assert (B : 0 < 1 / sqrt 3 <= 1) by (split; [apply Rdiv_lt_0_compat; lra|apply (Rmult_le_reg_r (sqrt 3)); [lra|]; field_simplify; lra]).
      assert (N : -1 / sqrt 3 = - (1 / sqrt 3)) by (field; lra). rewrite N in Hg.
      cbn in Hg. repeat (destruct Hg as [<-|Hg]; [do 2 eexists; split; [reflexivity|]; lra|]). destruct Hg. }
    destruct W as (u & v & -> & Hu & Hv).
    exists ((1 - u) * (1 - v) / 16 * c0 + (1 + u) * (1 - v) / 16 * c1 + (1 + u) * (1 + v) / 16 * c2 + (1 - u) * (1 + v) / 16 * c3). split.
    + assert (forall x y z, 0 <= x -> 0 <= y -> 0 <= z -> 0 <= x * y / 16 * z) by (intros; apply Rmult_le_pos; [apply Rmult_le_pos; [apply Rmult_le_pos; assumption|lra]|assumption]).
      assert (A : 0 <= (1 - u) * (1 - v) / 16 * c0) by (apply H; lra). assert (B : 0 <= (1 + u) * (1 - v) / 16 * c1) by (apply H; lra).
      assert (C : 0 <= (1 + u) * (1 + v) / 16 * c2) by (apply H; lra). assert (D : 0 <= (1 - u) * (1 + v) / 16 * c3) by (apply H; lra). lra.
    + unfold vscale. cbn [map]. rewrite !Rmult_plus_distr_r, !Rmult_assoc, <- F00, <- F01, <- F02, <- F10, <- F11, <- F12, <- F20, <- F21, <- F22, <- F30, <- F31, <- F32.
      cbv -[Rplus Rmult Rminus Ropp Rdiv Rinv IZR]. list3; field.
  - destruct F as [(p & b & c & Lp & Lb & Lc & ->) (k & Hk & F)]. exists (k / 4). split; [lra|].
    destruct (length3 p Lp) as (p0 & p1 & p2 & ->), (length3 b Lb) as (b0 & b1 & b2 & ->), (length3 c Lc) as (c0 & c1 & c2 & ->).
    transitivity (vscale (1 / 4) (vscale k [n0; n1; n2])); [|unfold vscale; cbn [map]; list3; field]. rewrite <- F. clear F.
    cbn [gauss_nodes] in Hg. unfold Quad_Quadratic_gauss in Hg. cbn in Hg.
    repeat (destruct Hg as [<-|Hg]; [generalize (1 / sqrt 3); generalize (-1 / sqrt 3); intros; cbv -[Rplus Rmult Rminus Ropp Rdiv Rinv IZR]; list3; field|]). destruct Hg.
Qed.
