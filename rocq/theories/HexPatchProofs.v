(** Quadratic hexahedra with straight edges: the integrals of the gradients of the shape functions as shares of the faces (C97). *)

From Coq Require Import ZArith Reals Lra Lia.
From Coquelicot Require Import Coquelicot.
From Coq Require Import List Arith Bool.
From Verif Require Import GridGeoModel ShapeModel ShapeSpec ShapeProofs ShapeFieldProofs ShapeGaussProofs LinAlg LinAlgProofs BarycentricModel MappingSpec MaterialSpec Sums HyperModel HyperSpec HyperProofs StabilityProofs2 EnergySpec PatchSpec PatchProofs PatchProofs2 HexPatchSpec.
Import ListNotations.
Open Scope R_scope.

Definition middle (p q : list R) : list R := vscale (1/2) (vadd p q).
Definition filled (c : list (list R)) : list (list R) :=
  c ++ map (fun e => middle (nth (fst (snd e)) c []) (nth (snd (snd e)) c [])) edges.
Definition bilinear_nodal (nodes : list (list R)) (a k : nat) : R :=
  Rsum (map (fun f => nth k (bilinear_share (fun i => nth i nodes []) (corner Hexahedron_Quadratic a, f)) 0) (faces_around Hexahedron_Quadratic a)).

Lemma jacobian_filled x0 y0 z0 x1 y1 z1 x2 y2 z2 x3 y3 z3 x4 y4 z4 x5 y5 z5 x6 y6 z6 x7 y7 z7 xi : length xi = 3%nat ->
  let c := [[x0;y0;z0];[x1;y1;z1];[x2;y2;z2];[x3;y3;z3];[x4;y4;z4];[x5;y5;z5];[x6;y6;z6];[x7;y7;z7]] in
  jacobian 3 Hexahedron_Quadratic (filled c) xi = jacobian 3 Hexahedron_Linear c xi.
Proof.
  intros Lx c. destruct (length3 xi Lx) as (u & v & w & ->). unfold c, jacobian, filled.
  cbv -[Rplus Rmult Rminus Ropp Rdiv Rinv IZR].
  repeat (apply f_equal2; [repeat (apply f_equal2; [field|]); reflexivity|]); reflexivity.
Qed.
Lemma trilinear_first x0 y0 z0 x1 y1 z1 x2 y2 z2 x3 y3 z3 x4 y4 z4 x5 y5 z5 x6 y6 z6 x7 y7 z7 a : (a < 20)%nat ->
  let c := [[x0;y0;z0];[x1;y1;z1];[x2;y2;z2];[x3;y3;z3];[x4;y4;z4];[x5;y5;z5];[x6;y6;z6];[x7;y7;z7]] in
  nodal_integral Hexahedron_Quadratic (gauss_nodes Hexahedron_Quadratic) (filled c) a 0 = bilinear_nodal (filled c) a 0.
Proof.
  intros Ha c. transitivity (Rsum (map (fun g => snd g * nth 0 (cofactor_product (jacobian 3 Hexahedron_Linear c (fst g)) (nth a (dL Hexahedron_Quadratic (fst g)) [])) 0) (gauss_nodes Hexahedron_Quadratic))).
  { unfold nodal_integral. apply Rsum_ext. intros g Hg. unfold c. rewrite jacobian_filled; [reflexivity|]. apply (gauss_position_length3 Hexahedron_Quadratic); [reflexivity|exact Hg]. }
  unfold c, bilinear_nodal, gauss_nodes, Hexahedron_Quadratic_gauss, filled.
  destruct root3 as (s & -> & -> & Hs).
  do 20 (destruct a as [|a]; [cbv -[Rplus Rmult Rminus Ropp Rdiv Rinv IZR]; field [Hs]|]). lia.
Qed.
