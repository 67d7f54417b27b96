(** The shape functions of caribou's elements with the doubles of the code.

    Source: /repo/src/Caribou/Geometry/*.h.  The formulas are kept as written (operations and order of evaluation; the quotients of literals are constants); each has two
    meanings: with reals, which is ShapeModel.v, and with IEEE doubles, rounded after each operation.
    Simplifications: round to nearest even, no fused multiply-add; a sum made by Eigen may be made in any order ([tree]). *)

From Coq Require Import ZArith Reals List.
From Flocq Require Import Core.Core IEEE754.BinarySingleNaN.
From Verif Require Import GridGeoModel ShapeModel FpModel.
Import ListNotations.
Open Scope R_scope.

(** Formulas: constants m/2^k, local coordinates, operations of C++. *)
Inductive ex : Type :=
| Cst (m : Z) (k : Z) | Var (i : nat) | Opp (a : ex) | Add (a b : ex) | Sub (a b : ex) | Mul (a b : ex).
Declare Scope ex_scope.
Delimit Scope ex_scope with ex.
Notation "- a" := (Opp a) : ex_scope.
Notation "a + b" := (Add a b) : ex_scope.
Notation "a - b" := (Sub a b) : ex_scope.
Notation "a * b" := (Mul a b) : ex_scope.

(** The literals of the formulas. *)
Definition zero := Cst 0 0.
Definition one := Cst 1 0.
Definition two := Cst 2 0.
Definition four := Cst 4 0.
Definition half := Cst 1 1.
Definition quarter := Cst 1 2.
Definition eighth := Cst 1 3.
Definition minus_one := Cst (-1) 0.
Definition minus_two := Cst (-2) 0.
Definition minus_four := Cst (-4) 0.
Definition minus_half := Cst (-1) 1.
Definition minus_quarter := Cst (-1) 2.
Definition minus_eighth := Cst (-1) 3.

(** The value of a formula with reals. *)
Fixpoint real_value (xi : list R) (a : ex) : R :=
  match a with
  | Cst m k => if (k =? 0)%Z then IZR m else IZR m / IZR (2 ^ k)
  | Var i => nth i xi 0
  | Opp a => - real_value xi a
  | Add a b => real_value xi a + real_value xi b
  | Sub a b => real_value xi a - real_value xi b
  | Mul a b => real_value xi a * real_value xi b
  end.
(** The value of a formula with doubles. *)
Fixpoint double_value (xi : list double) (a : ex) : double :=
  match a with
  | Cst m k => dbl m (- k)
  | Var i => nth i xi (of_int 0)
  | Opp a => fneg (double_value xi a)
  | Add a b => fadd (double_value xi a) (double_value xi b)
  | Sub a b => fsub (double_value xi a) (double_value xi b)
  | Mul a b => fmul (double_value xi a) (double_value xi b)
  end.

(** /repo/src/Caribou/Geometry/Segment.h:70-76 *)
Definition ex_Segment_Linear_L : list ex := (
  let u := Var 0 in
  [ (half * (one - u));
    (half * (one + u)) ])%ex.

(** /repo/src/Caribou/Geometry/Segment.h:78-83 *)
Definition ex_Segment_Linear_dL : list (list ex) := (
  [ [ minus_half ]; [ half ] ])%ex.

(** /repo/src/Caribou/Geometry/Segment.h:154-161 *)
Definition ex_Segment_Quadratic_L : list ex := (
  let u := Var 0 in
  [ (half * u * (u - one));
    (half * u * (u + one));
    (one - (u * u)) ])%ex.

(** /repo/src/Caribou/Geometry/Segment.h:163-170 *)
Definition ex_Segment_Quadratic_dL : list (list ex) := (
  let u := Var 0 in
  [ [ (u - half) ];
    [ (u + half) ];
    [ ( minus_two * u ) ] ])%ex.

(** /repo/src/Caribou/Geometry/Triangle.h:83-91 *)
Definition ex_Triangle_Linear_L : list ex := (
  let u := Var 0 in let v := Var 1 in
  [ (one - u - v);
    (u);
    (v) ])%ex.

(** /repo/src/Caribou/Geometry/Triangle.h:93-100 *)
Definition ex_Triangle_Linear_dL : list (list ex) := (
  let u := Var 0 in let v := Var 1 in
  [ [ minus_one; minus_one ];
    [ one; zero ];
    [ zero; one ] ])%ex.

(** /repo/src/Caribou/Geometry/Triangle.h:213-227 *)
Definition ex_Triangle_Quadratic_L : list ex := (
  let u := Var 0 in let v := Var 1 in
  let l := one - u - v in
  [ l * (two*l - one);
    u * (two*u - one);
    v * (two*v - one);
    four * u * l;
    four * u * v;
    four * v * l ])%ex.

(** /repo/src/Caribou/Geometry/Triangle.h:229-243 *)
Definition ex_Triangle_Quadratic_dL : list (list ex) := (
  let u := Var 0 in let v := Var 1 in
  let l := one - u - v in
  [ [ one - four * l; one - four * l ];
    [ four * u - one; zero ];
    [ zero; four * v - one ];
    [ four * (l - u); minus_four * u ];
    [ four * v; four * u ];
    [ minus_four * v; four * (l - v) ] ])%ex.

(** /repo/src/Caribou/Geometry/Quad.h:93-102 *)
Definition ex_Quad_Linear_L : list ex := (
  let u := Var 0 in let v := Var 1 in
  [ (quarter * (one - u) * (one - v));
    (quarter * (one + u) * (one - v));
    (quarter * (one + u) * (one + v));
    (quarter * (one - u) * (one + v)) ])%ex.

(** /repo/src/Caribou/Geometry/Quad.h:104-115 *)
Definition ex_Quad_Linear_dL : list (list ex) := (
  let u := Var 0 in let v := Var 1 in
  [ [ minus_quarter * (one - v); minus_quarter * (one - u) ];
    [ quarter * (one - v); minus_quarter * (one + u) ];
    [ quarter * (one + v); quarter * (one + u) ];
    [ minus_quarter * (one + v); quarter * (one - u) ] ])%ex.

(** /repo/src/Caribou/Geometry/Quad.h:251-267 *)
Definition ex_Quad_Quadratic_L : list ex := (
  let u := Var 0 in let v := Var 1 in
  let m4 := half*(one - u*u)*(one - v) in
  let m5 := half*(one - v*v)*(one + u) in
  let m6 := half*(one - u*u)*(one + v) in
  let m7 := half*(one - v*v)*(one - u) in
  let m0 := quarter*(one - u)*(one - v) - half*(m4 + m7) in
  let m1 := quarter*(one + u)*(one - v) - half*(m4 + m5) in
  let m2 := quarter*(one + u)*(one + v) - half*(m5 + m6) in
  let m3 := quarter*(one - u)*(one + v) - half*(m6 + m7) in
  [ m0; m1; m2; m3; m4; m5; m6; m7 ])%ex.

(** /repo/src/Caribou/Geometry/Quad.h:269-285 *)
Definition ex_Quad_Quadratic_dL : list (list ex) := (
  let u := Var 0 in let v := Var 1 in
  [ [ minus_quarter*(one - v) - half*(-u*(one - v) + minus_half*(one - v*v)); minus_quarter*(one - u) - half*(minus_half*(one - u*u) + -v*(one - u)) ];
    [ quarter*(one - v) - half*(-u*(one - v) + half*(one - v*v)); minus_quarter*(one + u) - half*(minus_half*(one - u*u) + -v*(one + u)) ];
    [ quarter*(one + v) - half*(-u*(one + v) + half*(one - v*v)); quarter*(one + u) - half*( half*(one - u*u) + -v*(one + u)) ];
    [ minus_quarter*(one + v) - half*(-u*(one + v) + minus_half*(one - v*v)); quarter*(one - u) - half*( half*(one - u*u) + -v*(one - u)) ];
    [ -u*(one - v); minus_half*(one - u*u) ];
    [ half*(one - v*v); -v*(one + u) ];
    [ -u*(one + v); half*(one - u*u) ];
    [ minus_half*(one - v*v); -v*(one - u) ] ])%ex.

(** /repo/src/Caribou/Geometry/RectangularQuad.h:95-104 *)
Definition ex_RectangularQuad_Linear_L : list ex := (
  let u := Var 0 in let v := Var 1 in
  [ (quarter * (one - u) * (one - v));
    (quarter * (one + u) * (one - v));
    (quarter * (one + u) * (one + v));
    (quarter * (one - u) * (one + v)) ])%ex.

(** /repo/src/Caribou/Geometry/RectangularQuad.h:106-117 *)
Definition ex_RectangularQuad_Linear_dL : list (list ex) := (
  let u := Var 0 in let v := Var 1 in
  [ [ minus_quarter * (one - v); minus_quarter * (one - u) ];
    [ quarter * (one - v); minus_quarter * (one + u) ];
    [ quarter * (one + v); quarter * (one + u) ];
    [ minus_quarter * (one + v); quarter * (one - u) ] ])%ex.

(** /repo/src/Caribou/Geometry/RectangularQuad.h:235-251 *)
Definition ex_RectangularQuad_Quadratic_L : list ex := (
  let u := Var 0 in let v := Var 1 in
  let m4 := half*(one - u*u)*(one - v) in
  let m5 := half*(one - v*v)*(one + u) in
  let m6 := half*(one - u*u)*(one + v) in
  let m7 := half*(one - v*v)*(one - u) in
  let m0 := quarter*(one - u)*(one - v) - half*(m4 + m7) in
  let m1 := quarter*(one + u)*(one - v) - half*(m4 + m5) in
  let m2 := quarter*(one + u)*(one + v) - half*(m5 + m6) in
  let m3 := quarter*(one - u)*(one + v) - half*(m6 + m7) in
  [ m0; m1; m2; m3; m4; m5; m6; m7 ])%ex.

(** /repo/src/Caribou/Geometry/RectangularQuad.h:253-269 *)
Definition ex_RectangularQuad_Quadratic_dL : list (list ex) := (
  let u := Var 0 in let v := Var 1 in
  [ [ minus_quarter*(one - v) - half*(-u*(one - v) + minus_half*(one - v*v)); minus_quarter*(one - u) - half*(minus_half*(one - u*u) + -v*(one - u)) ];
    [ quarter*(one - v) - half*(-u*(one - v) + half*(one - v*v)); minus_quarter*(one + u) - half*(minus_half*(one - u*u) + -v*(one + u)) ];
    [ quarter*(one + v) - half*(-u*(one + v) + half*(one - v*v)); quarter*(one + u) - half*( half*(one - u*u) + -v*(one + u)) ];
    [ minus_quarter*(one + v) - half*(-u*(one + v) + minus_half*(one - v*v)); quarter*(one - u) - half*( half*(one - u*u) + -v*(one - u)) ];
    [ -u*(one - v); minus_half*(one - u*u) ];
    [ half*(one - v*v); -v*(one + u) ];
    [ -u*(one + v); half*(one - u*u) ];
    [ minus_half*(one - v*v); -v*(one - u) ] ])%ex.

(** /repo/src/Caribou/Geometry/Tetrahedron.h:102-112 *)
Definition ex_Tetrahedron_Linear_L : list ex := (
  let u := Var 0 in let v := Var 1 in let w := Var 2 in
  [ (one - u - v - w);
    (u);
    (v);
    (w) ])%ex.

(** /repo/src/Caribou/Geometry/Tetrahedron.h:114-122 *)
Definition ex_Tetrahedron_Linear_dL : list (list ex) := (
  let u := Var 0 in let v := Var 1 in let w := Var 2 in
  [ [ minus_one; minus_one; minus_one ];
    [ one; zero; zero ];
    [ zero; one; zero ];
    [ zero; zero; one ] ])%ex.

(** /repo/src/Caribou/Geometry/Tetrahedron.h:259-278 *)
Definition ex_Tetrahedron_Quadratic_L : list ex := (
  let u := Var 0 in let v := Var 1 in let w := Var 2 in
  let l := one - u - v - w in
  [ l * (two*l - one);
    u * (two*u - one);
    v * (two*v - one);
    w * (two*w - one);
    four * l * u;
    four * u * v;
    four * v * l;
    four * l * w;
    four * u * w;
    four * v * w ])%ex.

(** /repo/src/Caribou/Geometry/Tetrahedron.h:280-299 *)
Definition ex_Tetrahedron_Quadratic_dL : list (list ex) := (
  let u := Var 0 in let v := Var 1 in let w := Var 2 in
  let l := one - u - v - w in
  [ [ one - (four * l); one - (four * l); one - (four * l) ];
    [ (four * u) - one; zero; zero ];
    [ zero; (four * v) - one; zero ];
    [ zero; zero; (four * w) - one ];
    [ four * (l - u); minus_four * u; minus_four * u ];
    [ four * v; four * u; zero ];
    [ minus_four * v; four * (l - v); minus_four * v ];
    [ minus_four * w; minus_four * w; four * (l - w) ];
    [ four * w; zero; four * u ];
    [ zero; four * w; four * v ] ])%ex.

(** /repo/src/Caribou/Geometry/Hexahedron.h:117-132 *)
Definition ex_Hexahedron_Linear_L : list ex := (
  let u := Var 0 in let v := Var 1 in let w := Var 2 in
  [ eighth * (one - u) * (one - v) * (one - w);
    eighth * (one + u) * (one - v) * (one - w);
    eighth * (one + u) * (one + v) * (one - w);
    eighth * (one - u) * (one + v) * (one - w);
    eighth * (one - u) * (one - v) * (one + w);
    eighth * (one + u) * (one - v) * (one + w);
    eighth * (one + u) * (one + v) * (one + w);
    eighth * (one - u) * (one + v) * (one + w) ])%ex.

(** /repo/src/Caribou/Geometry/Hexahedron.h:134-150 *)
Definition ex_Hexahedron_Linear_dL : list (list ex) := (
  let u := Var 0 in let v := Var 1 in let w := Var 2 in
  [ [ minus_eighth * (one - v) * (one - w); minus_eighth * (one - u) * (one - w); minus_eighth * (one - u) * (one - v) ];
    [ eighth * (one - v) * (one - w); minus_eighth * (one + u) * (one - w); minus_eighth * (one + u) * (one - v) ];
    [ eighth * (one + v) * (one - w); eighth * (one + u) * (one - w); minus_eighth * (one + u) * (one + v) ];
    [ minus_eighth * (one + v) * (one - w); eighth * (one - u) * (one - w); minus_eighth * (one - u) * (one + v) ];
    [ minus_eighth * (one - v) * (one + w); minus_eighth * (one - u) * (one + w); eighth * (one - u) * (one - v) ];
    [ eighth * (one - v) * (one + w); minus_eighth * (one + u) * (one + w); eighth * (one + u) * (one - v) ];
    [ eighth * (one + v) * (one + w); eighth * (one + u) * (one + w); eighth * (one + u) * (one + v) ];
    [ minus_eighth * (one + v) * (one + w); eighth * (one - u) * (one + w); eighth * (one - u) * (one + v) ] ])%ex.

(** /repo/src/Caribou/Geometry/Hexahedron.h:343-371 *)
Definition ex_Hexahedron_Quadratic_L : list ex := (
  let u := Var 0 in let v := Var 1 in let w := Var 2 in
  let m8 := quarter*(one - u*u)*(one - v)*(one - w) in
  let m9 := quarter*(one - v*v)*(one + u)*(one - w) in
  let m10 := quarter*(one - u*u)*(one + v)*(one - w) in
  let m11 := quarter*(one - v*v)*(one - u)*(one - w) in
  let m12 := quarter*(one - u*u)*(one - v)*(one + w) in
  let m13 := quarter*(one - v*v)*(one + u)*(one + w) in
  let m14 := quarter*(one - u*u)*(one + v)*(one + w) in
  let m15 := quarter*(one - v*v)*(one - u)*(one + w) in
  let m16 := quarter*(one - w*w)*(one - u)*(one - v) in
  let m17 := quarter*(one - w*w)*(one + u)*(one - v) in
  let m18 := quarter*(one - w*w)*(one + u)*(one + v) in
  let m19 := quarter*(one - w*w)*(one - u)*(one + v) in
  let m0 := eighth*(one - u)*(one - v)*(one - w) - half*(m8 + m11 + m16) in
  let m1 := eighth*(one + u)*(one - v)*(one - w) - half*(m8 + m9 + m17) in
  let m2 := eighth*(one + u)*(one + v)*(one - w) - half*(m9 + m10 + m18) in
  let m3 := eighth*(one - u)*(one + v)*(one - w) - half*(m10 + m11 + m19) in
  let m4 := eighth*(one - u)*(one - v)*(one + w) - half*(m12 + m15 + m16) in
  let m5 := eighth*(one + u)*(one - v)*(one + w) - half*(m12 + m13 + m17) in
  let m6 := eighth*(one + u)*(one + v)*(one + w) - half*(m13 + m14 + m18) in
  let m7 := eighth*(one - u)*(one + v)*(one + w) - half*(m14 + m15 + m19) in
  [ m0; m1; m2; m3; m4; m5; m6; m7; m8; m9; m10; m11; m12; m13; m14; m15; m16; m17; m18; m19 ])%ex.

(** /repo/src/Caribou/Geometry/Hexahedron.h:373-410 *)
Definition ex_Hexahedron_Quadratic_dL : list (list ex) := (
  let u := Var 0 in let v := Var 1 in let w := Var 2 in
  let du8 := minus_half*u*(one - v)*(one - w) in
  let dv8 := minus_quarter*(one - u*u)*(one - w) in
  let dw8 := minus_quarter*(one - u*u)*(one - v) in
  let du9 := quarter*(one - v*v)*(one - w) in
  let dv9 := minus_half*v*(one + u)*(one - w) in
  let dw9 := minus_quarter*(one - v*v)*(one + u) in
  let du10 := minus_half*u*(one + v)*(one - w) in
  let dv10 := quarter*(one - u*u)*(one - w) in
  let dw10 := minus_quarter*(one - u*u)*(one + v) in
  let du11 := minus_quarter*(one - v*v)*(one - w) in
  let dv11 := minus_half*v*(one - u)*(one - w) in
  let dw11 := minus_quarter*(one - v*v)*(one - u) in
  let du12 := minus_half*u*(one - v)*(one + w) in
  let dv12 := minus_quarter*(one - u*u)*(one + w) in
  let dw12 := quarter*(one - u*u)*(one - v) in
  let du13 := quarter*(one - v*v)*(one + w) in
  let dv13 := minus_half*v*(one + u)*(one + w) in
  let dw13 := quarter*(one - v*v)*(one + u) in
  let du14 := minus_half*u*(one + v)*(one + w) in
  let dv14 := quarter*(one - u*u)*(one + w) in
  let dw14 := quarter*(one - u*u)*(one + v) in
  let du15 := minus_quarter*(one - v*v)*(one + w) in
  let dv15 := minus_half*v*(one - u)*(one + w) in
  let dw15 := quarter*(one - v*v)*(one - u) in
  let du16 := minus_quarter*(one - w*w)*(one - v) in
  let dv16 := minus_quarter*(one - w*w)*(one - u) in
  let dw16 := minus_half*w*(one - u)*(one - v) in
  let du17 := quarter*(one - w*w)*(one - v) in
  let dv17 := minus_quarter*(one - w*w)*(one + u) in
  let dw17 := minus_half*w*(one + u)*(one - v) in
  let du18 := quarter*(one - w*w)*(one + v) in
  let dv18 := quarter*(one - w*w)*(one + u) in
  let dw18 := minus_half*w*(one + u)*(one + v) in
  let du19 := minus_quarter*(one - w*w)*(one + v) in
  let dv19 := quarter*(one - w*w)*(one - u) in
  let dw19 := minus_half*w*(one - u)*(one + v) in
  let du0 := minus_eighth*(one - v)*(one - w) - half*(du8 + du11 + du16) in
  let dv0 := minus_eighth*(one - u)*(one - w) - half*(dv8 + dv11 + dv16) in
  let dw0 := minus_eighth*(one - u)*(one - v) - half*(dw8 + dw11 + dw16) in
  let du1 := eighth*(one - v)*(one - w) - half*(du8 + du9 + du17) in
  let dv1 := minus_eighth*(one + u)*(one - w) - half*(dv8 + dv9 + dv17) in
  let dw1 := minus_eighth*(one + u)*(one - v) - half*(dw8 + dw9 + dw17) in
  let du2 := eighth*(one + v)*(one - w) - half*(du9 + du10 + du18) in
  let dv2 := eighth*(one + u)*(one - w) - half*(dv9 + dv10 + dv18) in
  let dw2 := minus_eighth*(one + u)*(one + v) - half*(dw9 + dw10 + dw18) in
  let du3 := minus_eighth*(one + v)*(one - w) - half*(du10 + du11 + du19) in
  let dv3 := eighth*(one - u)*(one - w) - half*(dv10 + dv11 + dv19) in
  let dw3 := minus_eighth*(one - u)*(one + v) - half*(dw10 + dw11 + dw19) in
  let du4 := minus_eighth*(one - v)*(one + w) - half*(du12 + du15 + du16) in
  let dv4 := minus_eighth*(one - u)*(one + w) - half*(dv12 + dv15 + dv16) in
  let dw4 := eighth*(one - u)*(one - v) - half*(dw12 + dw15 + dw16) in
  let du5 := eighth*(one - v)*(one + w) - half*(du12 + du13 + du17) in
  let dv5 := minus_eighth*(one + u)*(one + w) - half*(dv12 + dv13 + dv17) in
  let dw5 := eighth*(one + u)*(one - v) - half*(dw12 + dw13 + dw17) in
  let du6 := eighth*(one + v)*(one + w) - half*(du13 + du14 + du18) in
  let dv6 := eighth*(one + u)*(one + w) - half*(dv13 + dv14 + dv18) in
  let dw6 := eighth*(one + u)*(one + v) - half*(dw13 + dw14 + dw18) in
  let du7 := minus_eighth*(one + v)*(one + w) - half*(du14 + du15 + du19) in
  let dv7 := eighth*(one - u)*(one + w) - half*(dv14 + dv15 + dv19) in
  let dw7 := eighth*(one - u)*(one + v) - half*(dw14 + dw15 + dw19) in
  [ [ du0; dv0; dw0 ];
    [ du1; dv1; dw1 ];
    [ du2; dv2; dw2 ];
    [ du3; dv3; dw3 ];
    [ du4; dv4; dw4 ];
    [ du5; dv5; dw5 ];
    [ du6; dv6; dw6 ];
    [ du7; dv7; dw7 ];
    [ du8; dv8; dw8 ];
    [ du9; dv9; dw9 ];
    [ du10; dv10; dw10 ];
    [ du11; dv11; dw11 ];
    [ du12; dv12; dw12 ];
    [ du13; dv13; dw13 ];
    [ du14; dv14; dw14 ];
    [ du15; dv15; dw15 ];
    [ du16; dv16; dw16 ];
    [ du17; dv17; dw17 ];
    [ du18; dv18; dw18 ];
    [ du19; dv19; dw19 ] ])%ex.

(** /repo/src/Caribou/Geometry/RectangularHexahedron.h:114-129 *)
Definition ex_RectangularHexahedron_Linear_L : list ex := (
  let u := Var 0 in let v := Var 1 in let w := Var 2 in
  [ eighth * (one - u) * (one - v) * (one - w);
    eighth * (one + u) * (one - v) * (one - w);
    eighth * (one + u) * (one + v) * (one - w);
    eighth * (one - u) * (one + v) * (one - w);
    eighth * (one - u) * (one - v) * (one + w);
    eighth * (one + u) * (one - v) * (one + w);
    eighth * (one + u) * (one + v) * (one + w);
    eighth * (one - u) * (one + v) * (one + w) ])%ex.

(** /repo/src/Caribou/Geometry/RectangularHexahedron.h:131-147 *)
Definition ex_RectangularHexahedron_Linear_dL : list (list ex) := (
  let u := Var 0 in let v := Var 1 in let w := Var 2 in
  [ [ minus_eighth * (one - v) * (one - w); minus_eighth * (one - u) * (one - w); minus_eighth * (one - u) * (one - v) ];
    [ eighth * (one - v) * (one - w); minus_eighth * (one + u) * (one - w); minus_eighth * (one + u) * (one - v) ];
    [ eighth * (one + v) * (one - w); eighth * (one + u) * (one - w); minus_eighth * (one + u) * (one + v) ];
    [ minus_eighth * (one + v) * (one - w); eighth * (one - u) * (one - w); minus_eighth * (one - u) * (one + v) ];
    [ minus_eighth * (one - v) * (one + w); minus_eighth * (one - u) * (one + w); eighth * (one - u) * (one - v) ];
    [ eighth * (one - v) * (one + w); minus_eighth * (one + u) * (one + w); eighth * (one + u) * (one - v) ];
    [ eighth * (one + v) * (one + w); eighth * (one + u) * (one + w); eighth * (one + u) * (one + v) ];
    [ minus_eighth * (one + v) * (one + w); eighth * (one - u) * (one + w); eighth * (one - u) * (one + v) ] ])%ex.

(** /repo/src/Caribou/Geometry/RectangularHexahedron.h:304-332 *)
Definition ex_RectangularHexahedron_Quadratic_L : list ex := (
  let u := Var 0 in let v := Var 1 in let w := Var 2 in
  let m8 := quarter*(one - u*u)*(one - v)*(one - w) in
  let m9 := quarter*(one - v*v)*(one + u)*(one - w) in
  let m10 := quarter*(one - u*u)*(one + v)*(one - w) in
  let m11 := quarter*(one - v*v)*(one - u)*(one - w) in
  let m12 := quarter*(one - u*u)*(one - v)*(one + w) in
  let m13 := quarter*(one - v*v)*(one + u)*(one + w) in
  let m14 := quarter*(one - u*u)*(one + v)*(one + w) in
  let m15 := quarter*(one - v*v)*(one - u)*(one + w) in
  let m16 := quarter*(one - w*w)*(one - u)*(one - v) in
  let m17 := quarter*(one - w*w)*(one + u)*(one - v) in
  let m18 := quarter*(one - w*w)*(one + u)*(one + v) in
  let m19 := quarter*(one - w*w)*(one - u)*(one + v) in
  let m0 := eighth*(one - u)*(one - v)*(one - w) - half*(m8 + m11 + m16) in
  let m1 := eighth*(one + u)*(one - v)*(one - w) - half*(m8 + m9 + m17) in
  let m2 := eighth*(one + u)*(one + v)*(one - w) - half*(m9 + m10 + m18) in
  let m3 := eighth*(one - u)*(one + v)*(one - w) - half*(m10 + m11 + m19) in
  let m4 := eighth*(one - u)*(one - v)*(one + w) - half*(m12 + m15 + m16) in
  let m5 := eighth*(one + u)*(one - v)*(one + w) - half*(m12 + m13 + m17) in
  let m6 := eighth*(one + u)*(one + v)*(one + w) - half*(m13 + m14 + m18) in
  let m7 := eighth*(one - u)*(one + v)*(one + w) - half*(m14 + m15 + m19) in
  [ m0; m1; m2; m3; m4; m5; m6; m7; m8; m9; m10; m11; m12; m13; m14; m15; m16; m17; m18; m19 ])%ex.

(** /repo/src/Caribou/Geometry/RectangularHexahedron.h:334-371 *)
Definition ex_RectangularHexahedron_Quadratic_dL : list (list ex) := (
  let u := Var 0 in let v := Var 1 in let w := Var 2 in
  let du8 := minus_half*u*(one - v)*(one - w) in
  let dv8 := minus_quarter*(one - u*u)*(one - w) in
  let dw8 := minus_quarter*(one - u*u)*(one - v) in
  let du9 := quarter*(one - v*v)*(one - w) in
  let dv9 := minus_half*v*(one + u)*(one - w) in
  let dw9 := minus_quarter*(one - v*v)*(one + u) in
  let du10 := minus_half*u*(one + v)*(one - w) in
  let dv10 := quarter*(one - u*u)*(one - w) in
  let dw10 := minus_quarter*(one - u*u)*(one + v) in
  let du11 := minus_quarter*(one - v*v)*(one - w) in
  let dv11 := minus_half*v*(one - u)*(one - w) in
  let dw11 := minus_quarter*(one - v*v)*(one - u) in
  let du12 := minus_half*u*(one - v)*(one + w) in
  let dv12 := minus_quarter*(one - u*u)*(one + w) in
  let dw12 := quarter*(one - u*u)*(one - v) in
  let du13 := quarter*(one - v*v)*(one + w) in
  let dv13 := minus_half*v*(one + u)*(one + w) in
  let dw13 := quarter*(one - v*v)*(one + u) in
  let du14 := minus_half*u*(one + v)*(one + w) in
  let dv14 := quarter*(one - u*u)*(one + w) in
  let dw14 := quarter*(one - u*u)*(one + v) in
  let du15 := minus_quarter*(one - v*v)*(one + w) in
  let dv15 := minus_half*v*(one - u)*(one + w) in
  let dw15 := quarter*(one - v*v)*(one - u) in
  let du16 := minus_quarter*(one - w*w)*(one - v) in
  let dv16 := minus_quarter*(one - w*w)*(one - u) in
  let dw16 := minus_half*w*(one - u)*(one - v) in
  let du17 := quarter*(one - w*w)*(one - v) in
  let dv17 := minus_quarter*(one - w*w)*(one + u) in
  let dw17 := minus_half*w*(one + u)*(one - v) in
  let du18 := quarter*(one - w*w)*(one + v) in
  let dv18 := quarter*(one - w*w)*(one + u) in
  let dw18 := minus_half*w*(one + u)*(one + v) in
  let du19 := minus_quarter*(one - w*w)*(one + v) in
  let dv19 := quarter*(one - w*w)*(one - u) in
  let dw19 := minus_half*w*(one - u)*(one + v) in
  let du0 := minus_eighth*(one - v)*(one - w) - half*(du8 + du11 + du16) in
  let dv0 := minus_eighth*(one - u)*(one - w) - half*(dv8 + dv11 + dv16) in
  let dw0 := minus_eighth*(one - u)*(one - v) - half*(dw8 + dw11 + dw16) in
  let du1 := eighth*(one - v)*(one - w) - half*(du8 + du9 + du17) in
  let dv1 := minus_eighth*(one + u)*(one - w) - half*(dv8 + dv9 + dv17) in
  let dw1 := minus_eighth*(one + u)*(one - v) - half*(dw8 + dw9 + dw17) in
  let du2 := eighth*(one + v)*(one - w) - half*(du9 + du10 + du18) in
  let dv2 := eighth*(one + u)*(one - w) - half*(dv9 + dv10 + dv18) in
  let dw2 := minus_eighth*(one + u)*(one + v) - half*(dw9 + dw10 + dw18) in
  let du3 := minus_eighth*(one + v)*(one - w) - half*(du10 + du11 + du19) in
  let dv3 := eighth*(one - u)*(one - w) - half*(dv10 + dv11 + dv19) in
  let dw3 := minus_eighth*(one - u)*(one + v) - half*(dw10 + dw11 + dw19) in
  let du4 := minus_eighth*(one - v)*(one + w) - half*(du12 + du15 + du16) in
  let dv4 := minus_eighth*(one - u)*(one + w) - half*(dv12 + dv15 + dv16) in
  let dw4 := eighth*(one - u)*(one - v) - half*(dw12 + dw15 + dw16) in
  let du5 := eighth*(one - v)*(one + w) - half*(du12 + du13 + du17) in
  let dv5 := minus_eighth*(one + u)*(one + w) - half*(dv12 + dv13 + dv17) in
  let dw5 := eighth*(one + u)*(one - v) - half*(dw12 + dw13 + dw17) in
  let du6 := eighth*(one + v)*(one + w) - half*(du13 + du14 + du18) in
  let dv6 := eighth*(one + u)*(one + w) - half*(dv13 + dv14 + dv18) in
  let dw6 := eighth*(one + u)*(one + v) - half*(dw13 + dw14 + dw18) in
  let du7 := minus_eighth*(one + v)*(one + w) - half*(du14 + du15 + du19) in
  let dv7 := eighth*(one - u)*(one + w) - half*(dv14 + dv15 + dv19) in
  let dw7 := eighth*(one - u)*(one + v) - half*(dw14 + dw15 + dw19) in
  [ [ du0; dv0; dw0 ];
    [ du1; dv1; dw1 ];
    [ du2; dv2; dw2 ];
    [ du3; dv3; dw3 ];
    [ du4; dv4; dw4 ];
    [ du5; dv5; dw5 ];
    [ du6; dv6; dw6 ];
    [ du7; dv7; dw7 ];
    [ du8; dv8; dw8 ];
    [ du9; dv9; dw9 ];
    [ du10; dv10; dw10 ];
    [ du11; dv11; dw11 ];
    [ du12; dv12; dw12 ];
    [ du13; dv13; dw13 ];
    [ du14; dv14; dw14 ];
    [ du15; dv15; dw15 ];
    [ du16; dv16; dw16 ];
    [ du17; dv17; dw17 ];
    [ du18; dv18; dw18 ];
    [ du19; dv19; dw19 ] ])%ex.

(** Element.h: L(xi), dL(xi) *)
Definition ex_L (e : element) : list ex :=
  match e with
  | Segment_Linear => ex_Segment_Linear_L
  | Segment_Quadratic => ex_Segment_Quadratic_L
  | Triangle_Linear => ex_Triangle_Linear_L
  | Triangle_Quadratic => ex_Triangle_Quadratic_L
  | Quad_Linear => ex_Quad_Linear_L
  | Quad_Quadratic => ex_Quad_Quadratic_L
  | RectangularQuad_Linear => ex_RectangularQuad_Linear_L
  | RectangularQuad_Quadratic => ex_RectangularQuad_Quadratic_L
  | Tetrahedron_Linear => ex_Tetrahedron_Linear_L
  | Tetrahedron_Quadratic => ex_Tetrahedron_Quadratic_L
  | Hexahedron_Linear => ex_Hexahedron_Linear_L
  | Hexahedron_Quadratic => ex_Hexahedron_Quadratic_L
  | RectangularHexahedron_Linear => ex_RectangularHexahedron_Linear_L
  | RectangularHexahedron_Quadratic => ex_RectangularHexahedron_Quadratic_L
  end.
Definition ex_dL (e : element) : list (list ex) :=
  match e with
  | Segment_Linear => ex_Segment_Linear_dL
  | Segment_Quadratic => ex_Segment_Quadratic_dL
  | Triangle_Linear => ex_Triangle_Linear_dL
  | Triangle_Quadratic => ex_Triangle_Quadratic_dL
  | Quad_Linear => ex_Quad_Linear_dL
  | Quad_Quadratic => ex_Quad_Quadratic_dL
  | RectangularQuad_Linear => ex_RectangularQuad_Linear_dL
  | RectangularQuad_Quadratic => ex_RectangularQuad_Quadratic_dL
  | Tetrahedron_Linear => ex_Tetrahedron_Linear_dL
  | Tetrahedron_Quadratic => ex_Tetrahedron_Quadratic_dL
  | Hexahedron_Linear => ex_Hexahedron_Linear_dL
  | Hexahedron_Quadratic => ex_Hexahedron_Quadratic_dL
  | RectangularHexahedron_Linear => ex_RectangularHexahedron_Linear_dL
  | RectangularHexahedron_Quadratic => ex_RectangularHexahedron_Quadratic_dL
  end.
Definition fL (e : element) (xi : list double) : list double := map (double_value xi) (ex_L e).
Definition fdL (e : element) (xi : list double) : list (list double) := map (map (double_value xi)) (ex_dL e).

(** An order of summation: a tree with the indices of the terms at its leaves; accumulators may start from zero. *)
Inductive tree : Type := Zero | Term (i : nat) | Plus (a b : tree).
Fixpoint terms (t : tree) : list nat := match t with Zero => [] | Term i => [i] | Plus a b => terms a ++ terms b end.
Fixpoint size (t : tree) : nat := match t with Plus a b => size a + size b | _ => 1%nat end.
Fixpoint fsum (l : list double) (t : tree) : double :=
  match t with
  | Zero => of_int 0
  | Term i => nth i l (of_int 0)
  | Plus a b => fadd (fsum l a) (fsum l b)
  end.

(** Element.h:284-297 (interpolate) for one column of [values], the sum being made in the order [t]. *)
Definition finterpolate (t : tree) (e : element) (xi : list double) (values : list double) : double :=
  fsum (map2 fmul values (fL e xi)) t.
(** Element.h:377-381 (jacobian): entry (column of [nodes], k). *)
Definition fjacobian (t : tree) (e : element) (xi : list double) (nodes : list double) (k : nat) : double :=
  fsum (map2 fmul nodes (map (fun row => nth k row (of_int 0)) (fdL e xi))) t.
(** The canonical nodes of the elements (ShapeModel.v): their coordinates are 0, 1, -1 and 1/2. *)
Definition dyadic_nodes (e : element) : list (list (Z * Z)) :=
  let o := (0, 0)%Z in let p := (1, 0)%Z in let m := (-1, 0)%Z in let h := (1, 1)%Z in
  let quad := [[m; m]; [p; m]; [p; p]; [m; p]] in
  let quad8 := quad ++ [[o; m]; [p; o]; [o; p]; [m; o]] in
  let hexa := [[m; m; m]; [p; m; m]; [p; p; m]; [m; p; m]; [m; m; p]; [p; m; p]; [p; p; p]; [m; p; p]] in
  let hexa20 := hexa ++ [[o; m; m]; [p; o; m]; [o; p; m]; [m; o; m]; [o; m; p]; [p; o; p]; [o; p; p]; [m; o; p]; [m; m; o]; [p; m; o]; [p; p; o]; [m; p; o]] in
  match e with
  | Segment_Linear => [[m]; [p]]
  | Segment_Quadratic => [[m]; [p]; [o]]
  | Triangle_Linear => [[o; o]; [p; o]; [o; p]]
  | Triangle_Quadratic => [[o; o]; [p; o]; [o; p]; [h; o]; [h; h]; [o; h]]
  | Quad_Linear | RectangularQuad_Linear => quad
  | Quad_Quadratic | RectangularQuad_Quadratic => quad8
  | Tetrahedron_Linear => [[o; o; o]; [p; o; o]; [o; p; o]; [o; o; p]]
  | Tetrahedron_Quadratic => [[o; o; o]; [p; o; o]; [o; p; o]; [o; o; p]; [h; o; o]; [h; h; o]; [o; h; o]; [o; o; h]; [h; o; h]; [o; h; h]]
  | Hexahedron_Linear | RectangularHexahedron_Linear => hexa
  | Hexahedron_Quadratic | RectangularHexahedron_Quadratic => hexa20
  end.
Definition fcanonical_nodes (e : element) : list (list double) := map (map (fun mk => dbl (fst mk) (- snd mk))) (dyadic_nodes e).
