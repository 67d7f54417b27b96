(** Elements that are affine images of the reference element: motions without strain are rigid (C93). *)

From Coq Require Import ZArith Reals Lra Lia.
From Coquelicot Require Import Coquelicot.
From Coq Require Import List Arith Bool.
From Verif Require Import GridGeoModel ShapeModel ShapeSpec ShapeProofs ShapeGaussProofs.
Import ListNotations.
Open Scope R_scope.

Definition full (e : element) : Prop := In e [Tetrahedron_Linear; Tetrahedron_Quadratic; Hexahedron_Linear].
Definition der (e : element) (a k : nat) (xi : list R) : R := nth k (nth a (dL e xi) []) 0.

(** ** The derivatives of the shape functions at any point are combinations of those at the Gauss points *)
Definition spreads (e : element) (xi ls : list R) : Prop :=
  forall a k, (a < NumberOfNodes e)%nat -> (k < 3)%nat -> der e a k xi = Rsum (map2 (fun l g => l * der e a k (fst g)) ls (gauss_nodes e)).

Lemma spread_tet4 xi : length xi = 3%nat -> spreads Tetrahedron_Linear xi [1].
Proof. intros _ a k _ _. cbn [gauss_nodes map2 Rsum fold_right fst Tetrahedron_Linear_gauss]. unfold der. cbn [dL]. unfold Tetrahedron_Linear_dL. ring. Qed.

Definition lo : R := 0.1381966011250105.
Definition hi : R := 0.5854101966249685.
Lemma spread_tet10 u v w : spreads Tetrahedron_Quadratic [u; v; w]
  [1 - (u - lo) / (hi - lo) - (v - lo) / (hi - lo) - (w - lo) / (hi - lo); (w - lo) / (hi - lo); (v - lo) / (hi - lo); (u - lo) / (hi - lo)].
Proof.
  assert (N : hi - lo <> 0) by (unfold hi, lo; lra).
  intros a k Ha Hk. cbn [NumberOfNodes] in Ha. cbn [gauss_nodes Tetrahedron_Quadratic_gauss map2 Rsum fold_right fst]. fold lo hi. unfold der. cbn [dL]. unfold Tetrahedron_Quadratic_dL.
  cbn [nth]. generalize dependent hi. generalize lo. intros l h N.
  do 10 (destruct a as [|a]; [destruct k as [|[|[|]]]; try lia; cbn [nth]; field; exact N|]). lia.
Qed.

Lemma spread_hex8 u v w : let h x := (1 + x / g3) / 2 in
  spreads Hexahedron_Linear [u; v; w]
    [h (- u) * h (- v) * h (- w); h u * h (- v) * h (- w); h (- u) * h v * h (- w); h u * h v * h (- w);
     h (- u) * h (- v) * h w; h u * h (- v) * h w; h (- u) * h v * h w; h u * h v * h w].
Proof.
  intros h a k Ha Hk. pose proof g3_bounds as [P _]. cbn [NumberOfNodes] in Ha. cbn [gauss_nodes Hexahedron_Linear_gauss map2 Rsum fold_right fst].
  rewrite !neg_g3. fold g3. unfold der. cbn [dL]. unfold Hexahedron_Linear_dL. cbn [nth]. unfold h. assert (N : g3 <> 0) by lra. clear h P. generalize dependent g3. intros g N.
  do 8 (destruct a as [|a]; [destruct k as [|[|[|]]]; try lia; cbn [nth]; field; exact N|]). lia.
Qed.

Lemma spread e xi : full e -> length xi = 3%nat -> exists ls, spreads e xi ls.
Proof.
  intros F L. destruct xi as [|u [|v [|w [|]]]]; try discriminate. destruct F as [<-|[<-|[<-|[]]]].
  - exists [1]. apply spread_tet4. reflexivity.
  - eexists. apply spread_tet10.
  - eexists. apply spread_hex8.
Qed.

(** ** Simpson's rule along a segment *)
Definition middle (p q : list R) : list R := map2 (fun a b => (a + b) / 2) p q.
Lemma simpson e p q a : full e -> length p = 3%nat -> length q = 3%nat -> (a < NumberOfNodes e)%nat ->
  nth a (L e q) 0 - nth a (L e p) 0 =
  Rsum (map (fun k => (der e a k p + 4 * der e a k (middle p q) + der e a k q) / 6 * (nth k q 0 - nth k p 0)) (seq 0 3)).
Proof.
  intros F Lp Lq Ha. destruct p as [|p0 [|p1 [|p2 [|]]]]; try discriminate. destruct q as [|q0 [|q1 [|q2 [|]]]]; try discriminate.
  unfold der, middle. cbn [seq map map2 Rsum fold_right].
  destruct F as [<-|[<-|[<-|[]]]]; cbn [NumberOfNodes] in Ha; cbn [L dL]; unfold Tetrahedron_Linear_L, Tetrahedron_Linear_dL, Tetrahedron_Quadratic_L, Tetrahedron_Quadratic_dL, Hexahedron_Linear_L, Hexahedron_Linear_dL; cbn [nth].
  - do 4 (destruct a as [|a]; [cbn [nth]; field|]). lia.
  - do 10 (destruct a as [|a]; [cbn [nth]; field|]). lia.
  - do 8 (destruct a as [|a]; [cbn [nth]; field|]). lia.
Qed.
