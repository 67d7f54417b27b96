(** The integrals of the gradients of the shape functions over an element, as shares of its faces (C97). *)

From Coq Require Import ZArith Reals Lra Lia.
From Coquelicot Require Import Coquelicot.
From Coq Require Import List Arith Bool.
From Verif Require Import GridGeoModel ShapeModel ShapeSpec ShapeProofs ShapeFieldProofs ShapeGaussProofs LinAlg LinAlgProofs BarycentricModel MappingSpec MaterialSpec Sums HyperModel HyperSpec HyperProofs StabilityProofs2 EnergySpec PatchSpec.
Import ListNotations.
Open Scope R_scope.

(** det(J) J^-T v *)
Definition cofactor_product (J : list (list R)) (v : list R) : list R :=
  let c j := column J j in
  vadd (vadd (vscale (nth 0 v 0) (vcross (c 1%nat) (c 2%nat))) (vscale (nth 1 v 0) (vcross (c 2%nat) (c 0%nat)))) (vscale (nth 2 v 0) (vcross (c 0%nat) (c 1%nat))).
Definition nodal_integral (e : element) (gs : list (list R * R)) (nodes : list (list R)) (a k : nat) : R :=
  Rsum (map (fun g => snd g * nth k (cofactor_product (jacobian 3 e nodes (fst g)) (nth a (dL e (fst g)) [])) 0) gs).
Definition nodal_shares (e : element) (nodes : list (list R)) (a k : nat) : R :=
  Rsum (map (fun f => nth k (share (fun i => nth i nodes []) (corner e a, f)) 0) (faces_around e a)).

Lemma root3 : exists s, 1 / sqrt 3 = s / 3 /\ -1 / sqrt 3 = - s / 3 /\ s * s = 3.
Proof.
  exists (sqrt 3). assert (P : 0 < sqrt 3) by (apply sqrt_lt_R0; lra). assert (Q : sqrt 3 * sqrt 3 = 3) by (apply sqrt_sqrt; lra).
  split; [|split]; [| |exact Q]; apply (Rmult_eq_reg_r (sqrt 3 * 3)); try (apply Rmult_integral_contrapositive_currified; lra).
  - transitivity 3; [field; lra|]. transitivity (sqrt 3 * sqrt 3); [symmetry; exact Q|field].
  - transitivity (-3); [field; lra|]. transitivity (- (sqrt 3 * sqrt 3)); [rewrite Q; ring|field].
Qed.

Lemma hexahedron_first x0 y0 z0 x1 y1 z1 x2 y2 z2 x3 y3 z3 x4 y4 z4 x5 y5 z5 x6 y6 z6 x7 y7 z7 a : (a < 8)%nat ->
  let nodes := [[x0;y0;z0];[x1;y1;z1];[x2;y2;z2];[x3;y3;z3];[x4;y4;z4];[x5;y5;z5];[x6;y6;z6];[x7;y7;z7]] in
  nodal_integral Hexahedron_Linear (gauss_nodes Hexahedron_Linear) nodes a 0 = nodal_shares Hexahedron_Linear nodes a 0.
Proof.
  intros Ha nodes. unfold nodes, nodal_integral, nodal_shares, gauss_nodes, Hexahedron_Linear_gauss.
  destruct root3 as (s & -> & -> & Hs).
  do 8 (destruct a as [|a]; [cbv -[Rplus Rmult Rminus Ropp Rdiv Rinv IZR]; field [Hs]|]). lia.
Qed.
Lemma hexahedron_faces x0 y0 z0 x1 y1 z1 x2 y2 z2 x3 y3 z3 x4 y4 z4 x5 y5 z5 x6 y6 z6 x7 y7 z7 a k : (a < 8)%nat -> (k < 3)%nat ->
  let nodes := [[x0;y0;z0];[x1;y1;z1];[x2;y2;z2];[x3;y3;z3];[x4;y4;z4];[x5;y5;z5];[x6;y6;z6];[x7;y7;z7]] in
  nodal_integral Hexahedron_Linear (gauss_nodes Hexahedron_Linear) nodes a k = nodal_shares Hexahedron_Linear nodes a k.
Proof.
  intros Ha Hk nodes. destruct k as [|[|[|]]]; try lia.
  - apply hexahedron_first. exact Ha.
  - transitivity (nodal_integral Hexahedron_Linear (gauss_nodes Hexahedron_Linear) (map (fun p => [nth 1 p 0; nth 2 p 0; nth 0 p 0]) nodes) a 0).
    + unfold nodal_integral. apply Rsum_ext. intros g _. reflexivity.
    + unfold nodes. cbn [map nth]. rewrite hexahedron_first by exact Ha. 
      do 8 (destruct a as [|a]; [unfold nodal_shares; f_equal; cbv -[Rplus Rmult Rminus Ropp Rdiv Rinv IZR]; reflexivity|]). lia.
  - transitivity (nodal_integral Hexahedron_Linear (gauss_nodes Hexahedron_Linear) (map (fun p => [nth 2 p 0; nth 0 p 0; nth 1 p 0]) nodes) a 0).
    + unfold nodal_integral. apply Rsum_ext. intros g _. reflexivity.
    + unfold nodes. cbn [map nth]. rewrite hexahedron_first by exact Ha. 
      do 8 (destruct a as [|a]; [unfold nodal_shares; f_equal; cbv -[Rplus Rmult Rminus Ropp Rdiv Rinv IZR]; reflexivity|]). lia.
Qed.
Lemma tetrahedron_faces x0 y0 z0 x1 y1 z1 x2 y2 z2 x3 y3 z3 a k : (a < 4)%nat -> (k < 3)%nat ->
  let nodes := [[x0;y0;z0];[x1;y1;z1];[x2;y2;z2];[x3;y3;z3]] in
  nodal_integral Tetrahedron_Linear (gauss_nodes Tetrahedron_Linear) nodes a k = nodal_shares Tetrahedron_Linear nodes a k.
Proof.
  intros Ha Hk nodes. unfold nodes, nodal_integral, nodal_shares.
  do 4 (destruct a as [|a]; [destruct k as [|[|[|]]]; try lia; cbv -[Rplus Rmult Rminus Ropp Rdiv Rinv IZR]; field|]). lia.
Qed.

(** Straight quadratic elements *)
Lemma jacobian_straight e t M xi : e = Tetrahedron_Quadratic \/ e = Hexahedron_Quadratic \/ e = Hexahedron_Linear -> length t = 3%nat -> matrix3 M -> length xi = 3%nat ->
  jacobian 3 e (placed t M (canonical_nodes e)) xi = M.
Proof.
  intros K Lt MM Lx. destruct (matrix3_cases M MM) as (m00 & m01 & m02 & m10 & m11 & m12 & m20 & m21 & m22 & ->).
  destruct (length3 t Lt) as (t0 & t1 & t2 & ->), (length3 xi Lx) as (u & v & w & ->).
  destruct K as [-> | [-> | ->]]; unfold jacobian, placed;
    cbv -[Rplus Rmult Rminus Ropp Rdiv Rinv IZR];
    repeat (apply f_equal2; [repeat (apply f_equal2; [field|]); reflexivity|]); reflexivity.
Qed.
Lemma nodal_integral_straight e t M a k : e = Tetrahedron_Quadratic \/ e = Hexahedron_Quadratic -> length t = 3%nat -> matrix3 M ->
  nodal_integral e (gauss_nodes e) (placed t M (canonical_nodes e)) a k =
  Rsum (map (fun g => snd g * nth k (cofactor_product M (nth a (dL e (fst g)) [])) 0) (gauss_nodes e)).
Proof.
  intros K Lt MM. unfold nodal_integral. apply Rsum_ext. intros g Hg. rewrite jacobian_straight; try assumption; [reflexivity|tauto|].
  apply (gauss_position_length3 e); [destruct K as [-> | ->]; reflexivity|exact Hg].
Qed.
Lemma quadratic_tetrahedron_faces t M a k : length t = 3%nat -> matrix3 M -> (a < 10)%nat -> (k < 3)%nat ->
  let nodes := placed t M (canonical_nodes Tetrahedron_Quadratic) in
  nodal_integral Tetrahedron_Quadratic (gauss_nodes Tetrahedron_Quadratic) nodes a k = nodal_shares Tetrahedron_Quadratic nodes a k.
Proof.
  intros Lt MM Ha Hk nodes. unfold nodes. rewrite nodal_integral_straight by auto. unfold nodal_shares, placed.
  destruct (matrix3_cases M MM) as (m00 & m01 & m02 & m10 & m11 & m12 & m20 & m21 & m22 & ->), (length3 t Lt) as (t0 & t1 & t2 & ->).
  do 10 (destruct a as [|a]; [destruct k as [|[|[|]]]; try lia; cbv -[Rplus Rmult Rminus Ropp Rdiv Rinv IZR]; field|]). lia.
Qed.
Lemma quadratic_hexahedron_faces t M a k : length t = 3%nat -> matrix3 M -> (a < 20)%nat -> (k < 3)%nat ->
  let nodes := placed t M (canonical_nodes Hexahedron_Quadratic) in
  nodal_integral Hexahedron_Quadratic (gauss_nodes Hexahedron_Quadratic) nodes a k = nodal_shares Hexahedron_Quadratic nodes a k.
Proof.
  intros Lt MM Ha Hk nodes. unfold nodes. rewrite nodal_integral_straight by auto. unfold nodal_shares, placed, gauss_nodes, Hexahedron_Quadratic_gauss.
  destruct root3 as (s & -> & -> & Hs).
  destruct (matrix3_cases M MM) as (m00 & m01 & m02 & m10 & m11 & m12 & m20 & m21 & m22 & ->), (length3 t Lt) as (t0 & t1 & t2 & ->).
  do 20 (destruct a as [|a]; [destruct k as [|[|[|]]]; try lia; cbv -[Rplus Rmult Rminus Ropp Rdiv Rinv IZR]; field [Hs]|]). lia.
Qed.
(** Parallelepipeds with one integration point *)
Lemma one_point_faces t M a k : length t = 3%nat -> matrix3 M -> (a < 8)%nat -> (k < 3)%nat ->
  let nodes := placed t M (canonical_nodes Hexahedron_Linear) in
  nodal_integral Hexahedron_Linear [([0; 0; 0], 8)] nodes a k = nodal_shares Hexahedron_Linear nodes a k.
Proof.
  intros Lt MM Ha Hk nodes. unfold nodes, nodal_integral. cbn [map fst snd]. rewrite jacobian_straight by (auto; reflexivity). unfold nodal_shares, placed.
  destruct (matrix3_cases M MM) as (m00 & m01 & m02 & m10 & m11 & m12 & m20 & m21 & m22 & ->), (length3 t Lt) as (t0 & t1 & t2 & ->).
  do 8 (destruct a as [|a]; [destruct k as [|[|[|]]]; try lia; cbv -[Rplus Rmult Rminus Ropp Rdiv Rinv IZR]; field|]). lia.
Qed.
