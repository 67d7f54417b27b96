(** Model of caribou's geometric elements: shape functions, their derivatives, canonical
    nodes, quadrature rules, boundary tables, interpolation and containment.

    Source: /repo/src/Caribou/Geometry/*.h.

    Simplifications (whole file): scalars are exact reals.  A local or world point is the
    list of its coordinates and an Eigen matrix is the list of its rows; [xi[k]] is
    [nth k xi 0].  The world dimension is a parameter ([NbCols]) where it matters. *)

From Coq Require Import List Reals.
From Flocq Require Import Core.Raux.
From Verif Require Import GridGeoModel.
Import ListNotations.
Open Scope R_scope.

(** The element types (one constructor per template specialisation). *)
Inductive element : Type :=
| Segment_Linear | Segment_Quadratic
| Triangle_Linear | Triangle_Quadratic
| Quad_Linear | Quad_Quadratic
| RectangularQuad_Linear | RectangularQuad_Quadratic
| Tetrahedron_Linear | Tetrahedron_Quadratic
| Hexahedron_Linear | Hexahedron_Quadratic
| RectangularHexahedron_Linear | RectangularHexahedron_Quadratic.

(** * Shape functions and derivatives, literally *)

(** /repo/src/Caribou/Geometry/Segment.h:70-76 *)
Definition Segment_Linear_L (xi : list R) : list R :=
  let u := nth 0 xi 0 in
  [ (1/2 * (1 - u));
    (1/2 * (1 + u)) ].

(** /repo/src/Caribou/Geometry/Segment.h:78-83 *)
Definition Segment_Linear_dL (xi : list R) : list (list R) :=
  [ [ -1/2 ]; [ 1/2 ] ].

(** /repo/src/Caribou/Geometry/Segment.h:154-161 *)
Definition Segment_Quadratic_L (xi : list R) : list R :=
  let u := nth 0 xi 0 in
  [ (1/2 * u * (u - 1));
    (1/2 * u * (u + 1));
    (1 - (u * u)) ].

(** /repo/src/Caribou/Geometry/Segment.h:163-170 *)
Definition Segment_Quadratic_dL (xi : list R) : list (list R) :=
  let u := nth 0 xi 0 in
  [ [ (u - 1/2) ];
    [ (u + 1/2) ];
    [ ( -2 * u ) ] ].

(** /repo/src/Caribou/Geometry/Triangle.h:83-91 *)
Definition Triangle_Linear_L (xi : list R) : list R :=
  let u := nth 0 xi 0 in let v := nth 1 xi 0 in
  [ (1 - u - v);
    (u);
    (v) ].

(** /repo/src/Caribou/Geometry/Triangle.h:93-100 *)
Definition Triangle_Linear_dL (xi : list R) : list (list R) :=
  let u := nth 0 xi 0 in let v := nth 1 xi 0 in
  [ [ -1; -1 ];
    [ 1; 0 ];
    [ 0; 1 ] ].

(** /repo/src/Caribou/Geometry/Triangle.h:213-227 *)
Definition Triangle_Quadratic_L (xi : list R) : list R :=
  let u := nth 0 xi 0 in let v := nth 1 xi 0 in
  let l := 1 - u - v in
  [ l * (2*l - 1);
    u * (2*u - 1);
    v * (2*v - 1);
    4 * u * l;
    4 * u * v;
    4 * v * l ].

(** /repo/src/Caribou/Geometry/Triangle.h:229-243 *)
Definition Triangle_Quadratic_dL (xi : list R) : list (list R) :=
  let u := nth 0 xi 0 in let v := nth 1 xi 0 in
  let l := 1 - u - v in
  [ [ 1 - 4 * l; 1 - 4 * l ];
    [ 4 * u - 1; 0 ];
    [ 0; 4 * v - 1 ];
    [ 4 * (l - u); -4 * u ];
    [ 4 * v; 4 * u ];
    [ - 4 * v; 4 * (l - v) ] ].

(** /repo/src/Caribou/Geometry/Quad.h:93-102 *)
Definition Quad_Linear_L (xi : list R) : list R :=
  let u := nth 0 xi 0 in let v := nth 1 xi 0 in
  [ (1 / 4 * (1 - u) * (1 - v));
    (1 / 4 * (1 + u) * (1 - v));
    (1 / 4 * (1 + u) * (1 + v));
    (1 / 4 * (1 - u) * (1 + v)) ].

(** /repo/src/Caribou/Geometry/Quad.h:104-115 *)
Definition Quad_Linear_dL (xi : list R) : list (list R) :=
  let u := nth 0 xi 0 in let v := nth 1 xi 0 in
  [ [ -1 / 4 * (1 - v); -1 / 4 * (1 - u) ];
    [ 1 / 4 * (1 - v); -1 / 4 * (1 + u) ];
    [ 1 / 4 * (1 + v); 1 / 4 * (1 + u) ];
    [ -1 / 4 * (1 + v); 1 / 4 * (1 - u) ] ].

(** /repo/src/Caribou/Geometry/Quad.h:251-267 *)
Definition Quad_Quadratic_L (xi : list R) : list R :=
  let u := nth 0 xi 0 in let v := nth 1 xi 0 in
  let m4 := 1/2*(1 - u*u)*(1 - v) in
  let m5 := 1/2*(1 - v*v)*(1 + u) in
  let m6 := 1/2*(1 - u*u)*(1 + v) in
  let m7 := 1/2*(1 - v*v)*(1 - u) in
  let m0 := 1/4*(1 - u)*(1 - v) - 1/2*(m4 + m7) in
  let m1 := 1/4*(1 + u)*(1 - v) - 1/2*(m4 + m5) in
  let m2 := 1/4*(1 + u)*(1 + v) - 1/2*(m5 + m6) in
  let m3 := 1/4*(1 - u)*(1 + v) - 1/2*(m6 + m7) in
  [ m0; m1; m2; m3; m4; m5; m6; m7 ].

(** /repo/src/Caribou/Geometry/Quad.h:269-285 *)
Definition Quad_Quadratic_dL (xi : list R) : list (list R) :=
  let u := nth 0 xi 0 in let v := nth 1 xi 0 in
  [ [ -1/4*(1 - v) - 1/2*(-u*(1 - v) + -1/2*(1 - v*v)); -1/4*(1 - u) - 1/2*(-1/2*(1 - u*u) + -v*(1 - u)) ];
    [ 1/4*(1 - v) - 1/2*(-u*(1 - v) + 1/2*(1 - v*v)); -1/4*(1 + u) - 1/2*(-1/2*(1 - u*u) + -v*(1 + u)) ];
    [ 1/4*(1 + v) - 1/2*(-u*(1 + v) + 1/2*(1 - v*v)); 1/4*(1 + u) - 1/2*( 1/2*(1 - u*u) + -v*(1 + u)) ];
    [ -1/4*(1 + v) - 1/2*(-u*(1 + v) + -1/2*(1 - v*v)); 1/4*(1 - u) - 1/2*( 1/2*(1 - u*u) + -v*(1 - u)) ];
    [ -u*(1 - v); -1/2*(1 - u*u) ];
    [ 1/2*(1 - v*v); -v*(1 + u) ];
    [ -u*(1 + v); 1/2*(1 - u*u) ];
    [ -1/2*(1 - v*v); -v*(1 - u) ] ].

(** /repo/src/Caribou/Geometry/RectangularQuad.h:95-104 *)
Definition RectangularQuad_Linear_L (xi : list R) : list R :=
  let u := nth 0 xi 0 in let v := nth 1 xi 0 in
  [ (1 / 4 * (1 - u) * (1 - v));
    (1 / 4 * (1 + u) * (1 - v));
    (1 / 4 * (1 + u) * (1 + v));
    (1 / 4 * (1 - u) * (1 + v)) ].

(** /repo/src/Caribou/Geometry/RectangularQuad.h:106-117 *)
Definition RectangularQuad_Linear_dL (xi : list R) : list (list R) :=
  let u := nth 0 xi 0 in let v := nth 1 xi 0 in
  [ [ -1 / 4 * (1 - v); -1 / 4 * (1 - u) ];
    [ 1 / 4 * (1 - v); -1 / 4 * (1 + u) ];
    [ 1 / 4 * (1 + v); 1 / 4 * (1 + u) ];
    [ -1 / 4 * (1 + v); 1 / 4 * (1 - u) ] ].

(** /repo/src/Caribou/Geometry/RectangularQuad.h:235-251 *)
Definition RectangularQuad_Quadratic_L (xi : list R) : list R :=
  let u := nth 0 xi 0 in let v := nth 1 xi 0 in
  let m4 := 1/2*(1 - u*u)*(1 - v) in
  let m5 := 1/2*(1 - v*v)*(1 + u) in
  let m6 := 1/2*(1 - u*u)*(1 + v) in
  let m7 := 1/2*(1 - v*v)*(1 - u) in
  let m0 := 1/4*(1 - u)*(1 - v) - 1/2*(m4 + m7) in
  let m1 := 1/4*(1 + u)*(1 - v) - 1/2*(m4 + m5) in
  let m2 := 1/4*(1 + u)*(1 + v) - 1/2*(m5 + m6) in
  let m3 := 1/4*(1 - u)*(1 + v) - 1/2*(m6 + m7) in
  [ m0; m1; m2; m3; m4; m5; m6; m7 ].

(** /repo/src/Caribou/Geometry/RectangularQuad.h:253-269 *)
Definition RectangularQuad_Quadratic_dL (xi : list R) : list (list R) :=
  let u := nth 0 xi 0 in let v := nth 1 xi 0 in
  [ [ -1/4*(1 - v) - 1/2*(-u*(1 - v) + -1/2*(1 - v*v)); -1/4*(1 - u) - 1/2*(-1/2*(1 - u*u) + -v*(1 - u)) ];
    [ 1/4*(1 - v) - 1/2*(-u*(1 - v) + 1/2*(1 - v*v)); -1/4*(1 + u) - 1/2*(-1/2*(1 - u*u) + -v*(1 + u)) ];
    [ 1/4*(1 + v) - 1/2*(-u*(1 + v) + 1/2*(1 - v*v)); 1/4*(1 + u) - 1/2*( 1/2*(1 - u*u) + -v*(1 + u)) ];
    [ -1/4*(1 + v) - 1/2*(-u*(1 + v) + -1/2*(1 - v*v)); 1/4*(1 - u) - 1/2*( 1/2*(1 - u*u) + -v*(1 - u)) ];
    [ -u*(1 - v); -1/2*(1 - u*u) ];
    [ 1/2*(1 - v*v); -v*(1 + u) ];
    [ -u*(1 + v); 1/2*(1 - u*u) ];
    [ -1/2*(1 - v*v); -v*(1 - u) ] ].

(** /repo/src/Caribou/Geometry/Tetrahedron.h:102-112 *)
Definition Tetrahedron_Linear_L (xi : list R) : list R :=
  let u := nth 0 xi 0 in let v := nth 1 xi 0 in let w := nth 2 xi 0 in
  [ (1 - u - v - w);
    (u);
    (v);
    (w) ].

(** /repo/src/Caribou/Geometry/Tetrahedron.h:114-122 *)
Definition Tetrahedron_Linear_dL (xi : list R) : list (list R) :=
  let u := nth 0 xi 0 in let v := nth 1 xi 0 in let w := nth 2 xi 0 in
  [ [ -1; -1; -1 ];
    [ 1; 0; 0 ];
    [ 0; 1; 0 ];
    [ 0; 0; 1 ] ].

(** /repo/src/Caribou/Geometry/Tetrahedron.h:259-278 *)
Definition Tetrahedron_Quadratic_L (xi : list R) : list R :=
  let u := nth 0 xi 0 in let v := nth 1 xi 0 in let w := nth 2 xi 0 in
  let l := 1 - u - v - w in
  [ l * (2*l - 1);
    u * (2*u - 1);
    v * (2*v - 1);
    w * (2*w - 1);
    4 * l * u;
    4 * u * v;
    4 * v * l;
    4 * l * w;
    4 * u * w;
    4 * v * w ].

(** /repo/src/Caribou/Geometry/Tetrahedron.h:280-299 *)
Definition Tetrahedron_Quadratic_dL (xi : list R) : list (list R) :=
  let u := nth 0 xi 0 in let v := nth 1 xi 0 in let w := nth 2 xi 0 in
  let l := 1 - u - v - w in
  [ [ 1 - (4 * l); 1 - (4 * l); 1 - (4 * l) ];
    [ (4 * u) - 1; 0; 0 ];
    [ 0; (4 * v) - 1; 0 ];
    [ 0; 0; (4 * w) - 1 ];
    [ 4 * (l - u); -4 * u; -4 * u ];
    [ 4 * v; 4 * u; 0 ];
    [ -4 * v; 4 * (l - v); -4 * v ];
    [ -4 * w; -4 * w; 4 * (l - w) ];
    [ 4 * w; 0; 4 * u ];
    [ 0; 4 * w; 4 * v ] ].

(** /repo/src/Caribou/Geometry/Hexahedron.h:117-132 *)
Definition Hexahedron_Linear_L (xi : list R) : list R :=
  let u := nth 0 xi 0 in let v := nth 1 xi 0 in let w := nth 2 xi 0 in
  [ (1/8) * (1 - u) * (1 - v) * (1 - w);
    (1/8) * (1 + u) * (1 - v) * (1 - w);
    (1/8) * (1 + u) * (1 + v) * (1 - w);
    (1/8) * (1 - u) * (1 + v) * (1 - w);
    (1/8) * (1 - u) * (1 - v) * (1 + w);
    (1/8) * (1 + u) * (1 - v) * (1 + w);
    (1/8) * (1 + u) * (1 + v) * (1 + w);
    (1/8) * (1 - u) * (1 + v) * (1 + w) ].

(** /repo/src/Caribou/Geometry/Hexahedron.h:134-150 *)
Definition Hexahedron_Linear_dL (xi : list R) : list (list R) :=
  let u := nth 0 xi 0 in let v := nth 1 xi 0 in let w := nth 2 xi 0 in
  [ [ -1/8 * (1 - v) * (1 - w); -1/8 * (1 - u) * (1 - w); -1/8 * (1 - u) * (1 - v) ];
    [ 1/8 * (1 - v) * (1 - w); -1/8 * (1 + u) * (1 - w); -1/8 * (1 + u) * (1 - v) ];
    [ 1/8 * (1 + v) * (1 - w); 1/8 * (1 + u) * (1 - w); -1/8 * (1 + u) * (1 + v) ];
    [ -1/8 * (1 + v) * (1 - w); 1/8 * (1 - u) * (1 - w); -1/8 * (1 - u) * (1 + v) ];
    [ -1/8 * (1 - v) * (1 + w); -1/8 * (1 - u) * (1 + w); 1/8 * (1 - u) * (1 - v) ];
    [ 1/8 * (1 - v) * (1 + w); -1/8 * (1 + u) * (1 + w); 1/8 * (1 + u) * (1 - v) ];
    [ 1/8 * (1 + v) * (1 + w); 1/8 * (1 + u) * (1 + w); 1/8 * (1 + u) * (1 + v) ];
    [ -1/8 * (1 + v) * (1 + w); 1/8 * (1 - u) * (1 + w); 1/8 * (1 - u) * (1 + v) ] ].

(** /repo/src/Caribou/Geometry/Hexahedron.h:343-371 *)
Definition Hexahedron_Quadratic_L (xi : list R) : list R :=
  let u := nth 0 xi 0 in let v := nth 1 xi 0 in let w := nth 2 xi 0 in
  let m8 := 1/4*(1 - u*u)*(1 - v)*(1 - w) in
  let m9 := 1/4*(1 - v*v)*(1 + u)*(1 - w) in
  let m10 := 1/4*(1 - u*u)*(1 + v)*(1 - w) in
  let m11 := 1/4*(1 - v*v)*(1 - u)*(1 - w) in
  let m12 := 1/4*(1 - u*u)*(1 - v)*(1 + w) in
  let m13 := 1/4*(1 - v*v)*(1 + u)*(1 + w) in
  let m14 := 1/4*(1 - u*u)*(1 + v)*(1 + w) in
  let m15 := 1/4*(1 - v*v)*(1 - u)*(1 + w) in
  let m16 := 1/4*(1 - w*w)*(1 - u)*(1 - v) in
  let m17 := 1/4*(1 - w*w)*(1 + u)*(1 - v) in
  let m18 := 1/4*(1 - w*w)*(1 + u)*(1 + v) in
  let m19 := 1/4*(1 - w*w)*(1 - u)*(1 + v) in
  let m0 := 1/8*(1 - u)*(1 - v)*(1 - w) - 1/2*(m8 + m11 + m16) in
  let m1 := 1/8*(1 + u)*(1 - v)*(1 - w) - 1/2*(m8 + m9 + m17) in
  let m2 := 1/8*(1 + u)*(1 + v)*(1 - w) - 1/2*(m9 + m10 + m18) in
  let m3 := 1/8*(1 - u)*(1 + v)*(1 - w) - 1/2*(m10 + m11 + m19) in
  let m4 := 1/8*(1 - u)*(1 - v)*(1 + w) - 1/2*(m12 + m15 + m16) in
  let m5 := 1/8*(1 + u)*(1 - v)*(1 + w) - 1/2*(m12 + m13 + m17) in
  let m6 := 1/8*(1 + u)*(1 + v)*(1 + w) - 1/2*(m13 + m14 + m18) in
  let m7 := 1/8*(1 - u)*(1 + v)*(1 + w) - 1/2*(m14 + m15 + m19) in
  [ m0; m1; m2; m3; m4; m5; m6; m7; m8; m9; m10; m11; m12; m13; m14; m15; m16; m17; m18; m19 ].

(** /repo/src/Caribou/Geometry/Hexahedron.h:373-410 *)
Definition Hexahedron_Quadratic_dL (xi : list R) : list (list R) :=
  let u := nth 0 xi 0 in let v := nth 1 xi 0 in let w := nth 2 xi 0 in
  let du8 := -1/2*u*(1 - v)*(1 - w) in
  let dv8 := -1/4*(1 - u*u)*(1 - w) in
  let dw8 := -1/4*(1 - u*u)*(1 - v) in
  let du9 := 1/4*(1 - v*v)*(1 - w) in
  let dv9 := -1/2*v*(1 + u)*(1 - w) in
  let dw9 := -1/4*(1 - v*v)*(1 + u) in
  let du10 := -1/2*u*(1 + v)*(1 - w) in
  let dv10 := 1/4*(1 - u*u)*(1 - w) in
  let dw10 := -1/4*(1 - u*u)*(1 + v) in
  let du11 := -1/4*(1 - v*v)*(1 - w) in
  let dv11 := -1/2*v*(1 - u)*(1 - w) in
  let dw11 := -1/4*(1 - v*v)*(1 - u) in
  let du12 := -1/2*u*(1 - v)*(1 + w) in
  let dv12 := -1/4*(1 - u*u)*(1 + w) in
  let dw12 := 1/4*(1 - u*u)*(1 - v) in
  let du13 := 1/4*(1 - v*v)*(1 + w) in
  let dv13 := -1/2*v*(1 + u)*(1 + w) in
  let dw13 := 1/4*(1 - v*v)*(1 + u) in
  let du14 := -1/2*u*(1 + v)*(1 + w) in
  let dv14 := 1/4*(1 - u*u)*(1 + w) in
  let dw14 := 1/4*(1 - u*u)*(1 + v) in
  let du15 := -1/4*(1 - v*v)*(1 + w) in
  let dv15 := -1/2*v*(1 - u)*(1 + w) in
  let dw15 := 1/4*(1 - v*v)*(1 - u) in
  let du16 := -1/4*(1 - w*w)*(1 - v) in
  let dv16 := -1/4*(1 - w*w)*(1 - u) in
  let dw16 := -1/2*w*(1 - u)*(1 - v) in
  let du17 := 1/4*(1 - w*w)*(1 - v) in
  let dv17 := -1/4*(1 - w*w)*(1 + u) in
  let dw17 := -1/2*w*(1 + u)*(1 - v) in
  let du18 := 1/4*(1 - w*w)*(1 + v) in
  let dv18 := 1/4*(1 - w*w)*(1 + u) in
  let dw18 := -1/2*w*(1 + u)*(1 + v) in
  let du19 := -1/4*(1 - w*w)*(1 + v) in
  let dv19 := 1/4*(1 - w*w)*(1 - u) in
  let dw19 := -1/2*w*(1 - u)*(1 + v) in
  let du0 := -1/8*(1 - v)*(1 - w) - 1/2*(du8 + du11 + du16) in
  let dv0 := -1/8*(1 - u)*(1 - w) - 1/2*(dv8 + dv11 + dv16) in
  let dw0 := -1/8*(1 - u)*(1 - v) - 1/2*(dw8 + dw11 + dw16) in
  let du1 := 1/8*(1 - v)*(1 - w) - 1/2*(du8 + du9 + du17) in
  let dv1 := -1/8*(1 + u)*(1 - w) - 1/2*(dv8 + dv9 + dv17) in
  let dw1 := -1/8*(1 + u)*(1 - v) - 1/2*(dw8 + dw9 + dw17) in
  let du2 := 1/8*(1 + v)*(1 - w) - 1/2*(du9 + du10 + du18) in
  let dv2 := 1/8*(1 + u)*(1 - w) - 1/2*(dv9 + dv10 + dv18) in
  let dw2 := -1/8*(1 + u)*(1 + v) - 1/2*(dw9 + dw10 + dw18) in
  let du3 := -1/8*(1 + v)*(1 - w) - 1/2*(du10 + du11 + du19) in
  let dv3 := 1/8*(1 - u)*(1 - w) - 1/2*(dv10 + dv11 + dv19) in
  let dw3 := -1/8*(1 - u)*(1 + v) - 1/2*(dw10 + dw11 + dw19) in
  let du4 := -1/8*(1 - v)*(1 + w) - 1/2*(du12 + du15 + du16) in
  let dv4 := -1/8*(1 - u)*(1 + w) - 1/2*(dv12 + dv15 + dv16) in
  let dw4 := 1/8*(1 - u)*(1 - v) - 1/2*(dw12 + dw15 + dw16) in
  let du5 := 1/8*(1 - v)*(1 + w) - 1/2*(du12 + du13 + du17) in
  let dv5 := -1/8*(1 + u)*(1 + w) - 1/2*(dv12 + dv13 + dv17) in
  let dw5 := 1/8*(1 + u)*(1 - v) - 1/2*(dw12 + dw13 + dw17) in
  let du6 := 1/8*(1 + v)*(1 + w) - 1/2*(du13 + du14 + du18) in
  let dv6 := 1/8*(1 + u)*(1 + w) - 1/2*(dv13 + dv14 + dv18) in
  let dw6 := 1/8*(1 + u)*(1 + v) - 1/2*(dw13 + dw14 + dw18) in
  let du7 := -1/8*(1 + v)*(1 + w) - 1/2*(du14 + du15 + du19) in
  let dv7 := 1/8*(1 - u)*(1 + w) - 1/2*(dv14 + dv15 + dv19) in
  let dw7 := 1/8*(1 - u)*(1 + v) - 1/2*(dw14 + dw15 + dw19) in
  [ [ du0; dv0; dw0 ];
    [ du1; dv1; dw1 ];
    [ du2; dv2; dw2 ];
    [ du3; dv3; dw3 ];
    [ du4; dv4; dw4 ];
    [ du5; dv5; dw5 ];
    [ du6; dv6; dw6 ];
    [ du7; dv7; dw7 ];
    [ du8; dv8; dw8 ];
    [ du9; dv9; dw9 ];
    [ du10; dv10; dw10 ];
    [ du11; dv11; dw11 ];
    [ du12; dv12; dw12 ];
    [ du13; dv13; dw13 ];
    [ du14; dv14; dw14 ];
    [ du15; dv15; dw15 ];
    [ du16; dv16; dw16 ];
    [ du17; dv17; dw17 ];
    [ du18; dv18; dw18 ];
    [ du19; dv19; dw19 ] ].

(** /repo/src/Caribou/Geometry/RectangularHexahedron.h:114-129 *)
Definition RectangularHexahedron_Linear_L (xi : list R) : list R :=
  let u := nth 0 xi 0 in let v := nth 1 xi 0 in let w := nth 2 xi 0 in
  [ (1/8) * (1 - u) * (1 - v) * (1 - w);
    (1/8) * (1 + u) * (1 - v) * (1 - w);
    (1/8) * (1 + u) * (1 + v) * (1 - w);
    (1/8) * (1 - u) * (1 + v) * (1 - w);
    (1/8) * (1 - u) * (1 - v) * (1 + w);
    (1/8) * (1 + u) * (1 - v) * (1 + w);
    (1/8) * (1 + u) * (1 + v) * (1 + w);
    (1/8) * (1 - u) * (1 + v) * (1 + w) ].

(** /repo/src/Caribou/Geometry/RectangularHexahedron.h:131-147 *)
Definition RectangularHexahedron_Linear_dL (xi : list R) : list (list R) :=
  let u := nth 0 xi 0 in let v := nth 1 xi 0 in let w := nth 2 xi 0 in
  [ [ -1/8 * (1 - v) * (1 - w); -1/8 * (1 - u) * (1 - w); -1/8 * (1 - u) * (1 - v) ];
    [ 1/8 * (1 - v) * (1 - w); -1/8 * (1 + u) * (1 - w); -1/8 * (1 + u) * (1 - v) ];
    [ 1/8 * (1 + v) * (1 - w); 1/8 * (1 + u) * (1 - w); -1/8 * (1 + u) * (1 + v) ];
    [ -1/8 * (1 + v) * (1 - w); 1/8 * (1 - u) * (1 - w); -1/8 * (1 - u) * (1 + v) ];
    [ -1/8 * (1 - v) * (1 + w); -1/8 * (1 - u) * (1 + w); 1/8 * (1 - u) * (1 - v) ];
    [ 1/8 * (1 - v) * (1 + w); -1/8 * (1 + u) * (1 + w); 1/8 * (1 + u) * (1 - v) ];
    [ 1/8 * (1 + v) * (1 + w); 1/8 * (1 + u) * (1 + w); 1/8 * (1 + u) * (1 + v) ];
    [ -1/8 * (1 + v) * (1 + w); 1/8 * (1 - u) * (1 + w); 1/8 * (1 - u) * (1 + v) ] ].

(** /repo/src/Caribou/Geometry/RectangularHexahedron.h:304-332 *)
Definition RectangularHexahedron_Quadratic_L (xi : list R) : list R :=
  let u := nth 0 xi 0 in let v := nth 1 xi 0 in let w := nth 2 xi 0 in
  let m8 := 1/4*(1 - u*u)*(1 - v)*(1 - w) in
  let m9 := 1/4*(1 - v*v)*(1 + u)*(1 - w) in
  let m10 := 1/4*(1 - u*u)*(1 + v)*(1 - w) in
  let m11 := 1/4*(1 - v*v)*(1 - u)*(1 - w) in
  let m12 := 1/4*(1 - u*u)*(1 - v)*(1 + w) in
  let m13 := 1/4*(1 - v*v)*(1 + u)*(1 + w) in
  let m14 := 1/4*(1 - u*u)*(1 + v)*(1 + w) in
  let m15 := 1/4*(1 - v*v)*(1 - u)*(1 + w) in
  let m16 := 1/4*(1 - w*w)*(1 - u)*(1 - v) in
  let m17 := 1/4*(1 - w*w)*(1 + u)*(1 - v) in
  let m18 := 1/4*(1 - w*w)*(1 + u)*(1 + v) in
  let m19 := 1/4*(1 - w*w)*(1 - u)*(1 + v) in
  let m0 := 1/8*(1 - u)*(1 - v)*(1 - w) - 1/2*(m8 + m11 + m16) in
  let m1 := 1/8*(1 + u)*(1 - v)*(1 - w) - 1/2*(m8 + m9 + m17) in
  let m2 := 1/8*(1 + u)*(1 + v)*(1 - w) - 1/2*(m9 + m10 + m18) in
  let m3 := 1/8*(1 - u)*(1 + v)*(1 - w) - 1/2*(m10 + m11 + m19) in
  let m4 := 1/8*(1 - u)*(1 - v)*(1 + w) - 1/2*(m12 + m15 + m16) in
  let m5 := 1/8*(1 + u)*(1 - v)*(1 + w) - 1/2*(m12 + m13 + m17) in
  let m6 := 1/8*(1 + u)*(1 + v)*(1 + w) - 1/2*(m13 + m14 + m18) in
  let m7 := 1/8*(1 - u)*(1 + v)*(1 + w) - 1/2*(m14 + m15 + m19) in
  [ m0; m1; m2; m3; m4; m5; m6; m7; m8; m9; m10; m11; m12; m13; m14; m15; m16; m17; m18; m19 ].

(** /repo/src/Caribou/Geometry/RectangularHexahedron.h:334-371 *)
Definition RectangularHexahedron_Quadratic_dL (xi : list R) : list (list R) :=
  let u := nth 0 xi 0 in let v := nth 1 xi 0 in let w := nth 2 xi 0 in
  let du8 := -1/2*u*(1 - v)*(1 - w) in
  let dv8 := -1/4*(1 - u*u)*(1 - w) in
  let dw8 := -1/4*(1 - u*u)*(1 - v) in
  let du9 := 1/4*(1 - v*v)*(1 - w) in
  let dv9 := -1/2*v*(1 + u)*(1 - w) in
  let dw9 := -1/4*(1 - v*v)*(1 + u) in
  let du10 := -1/2*u*(1 + v)*(1 - w) in
  let dv10 := 1/4*(1 - u*u)*(1 - w) in
  let dw10 := -1/4*(1 - u*u)*(1 + v) in
  let du11 := -1/4*(1 - v*v)*(1 - w) in
  let dv11 := -1/2*v*(1 - u)*(1 - w) in
  let dw11 := -1/4*(1 - v*v)*(1 - u) in
  let du12 := -1/2*u*(1 - v)*(1 + w) in
  let dv12 := -1/4*(1 - u*u)*(1 + w) in
  let dw12 := 1/4*(1 - u*u)*(1 - v) in
  let du13 := 1/4*(1 - v*v)*(1 + w) in
  let dv13 := -1/2*v*(1 + u)*(1 + w) in
  let dw13 := 1/4*(1 - v*v)*(1 + u) in
  let du14 := -1/2*u*(1 + v)*(1 + w) in
  let dv14 := 1/4*(1 - u*u)*(1 + w) in
  let dw14 := 1/4*(1 - u*u)*(1 + v) in
  let du15 := -1/4*(1 - v*v)*(1 + w) in
  let dv15 := -1/2*v*(1 - u)*(1 + w) in
  let dw15 := 1/4*(1 - v*v)*(1 - u) in
  let du16 := -1/4*(1 - w*w)*(1 - v) in
  let dv16 := -1/4*(1 - w*w)*(1 - u) in
  let dw16 := -1/2*w*(1 - u)*(1 - v) in
  let du17 := 1/4*(1 - w*w)*(1 - v) in
  let dv17 := -1/4*(1 - w*w)*(1 + u) in
  let dw17 := -1/2*w*(1 + u)*(1 - v) in
  let du18 := 1/4*(1 - w*w)*(1 + v) in
  let dv18 := 1/4*(1 - w*w)*(1 + u) in
  let dw18 := -1/2*w*(1 + u)*(1 + v) in
  let du19 := -1/4*(1 - w*w)*(1 + v) in
  let dv19 := 1/4*(1 - w*w)*(1 - u) in
  let dw19 := -1/2*w*(1 - u)*(1 + v) in
  let du0 := -1/8*(1 - v)*(1 - w) - 1/2*(du8 + du11 + du16) in
  let dv0 := -1/8*(1 - u)*(1 - w) - 1/2*(dv8 + dv11 + dv16) in
  let dw0 := -1/8*(1 - u)*(1 - v) - 1/2*(dw8 + dw11 + dw16) in
  let du1 := 1/8*(1 - v)*(1 - w) - 1/2*(du8 + du9 + du17) in
  let dv1 := -1/8*(1 + u)*(1 - w) - 1/2*(dv8 + dv9 + dv17) in
  let dw1 := -1/8*(1 + u)*(1 - v) - 1/2*(dw8 + dw9 + dw17) in
  let du2 := 1/8*(1 + v)*(1 - w) - 1/2*(du9 + du10 + du18) in
  let dv2 := 1/8*(1 + u)*(1 - w) - 1/2*(dv9 + dv10 + dv18) in
  let dw2 := -1/8*(1 + u)*(1 + v) - 1/2*(dw9 + dw10 + dw18) in
  let du3 := -1/8*(1 + v)*(1 - w) - 1/2*(du10 + du11 + du19) in
  let dv3 := 1/8*(1 - u)*(1 - w) - 1/2*(dv10 + dv11 + dv19) in
  let dw3 := -1/8*(1 - u)*(1 + v) - 1/2*(dw10 + dw11 + dw19) in
  let du4 := -1/8*(1 - v)*(1 + w) - 1/2*(du12 + du15 + du16) in
  let dv4 := -1/8*(1 - u)*(1 + w) - 1/2*(dv12 + dv15 + dv16) in
  let dw4 := 1/8*(1 - u)*(1 - v) - 1/2*(dw12 + dw15 + dw16) in
  let du5 := 1/8*(1 - v)*(1 + w) - 1/2*(du12 + du13 + du17) in
  let dv5 := -1/8*(1 + u)*(1 + w) - 1/2*(dv12 + dv13 + dv17) in
  let dw5 := 1/8*(1 + u)*(1 - v) - 1/2*(dw12 + dw13 + dw17) in
  let du6 := 1/8*(1 + v)*(1 + w) - 1/2*(du13 + du14 + du18) in
  let dv6 := 1/8*(1 + u)*(1 + w) - 1/2*(dv13 + dv14 + dv18) in
  let dw6 := 1/8*(1 + u)*(1 + v) - 1/2*(dw13 + dw14 + dw18) in
  let du7 := -1/8*(1 + v)*(1 + w) - 1/2*(du14 + du15 + du19) in
  let dv7 := 1/8*(1 - u)*(1 + w) - 1/2*(dv14 + dv15 + dv19) in
  let dw7 := 1/8*(1 - u)*(1 + v) - 1/2*(dw14 + dw15 + dw19) in
  [ [ du0; dv0; dw0 ];
    [ du1; dv1; dw1 ];
    [ du2; dv2; dw2 ];
    [ du3; dv3; dw3 ];
    [ du4; dv4; dw4 ];
    [ du5; dv5; dw5 ];
    [ du6; dv6; dw6 ];
    [ du7; dv7; dw7 ];
    [ du8; dv8; dw8 ];
    [ du9; dv9; dw9 ];
    [ du10; dv10; dw10 ];
    [ du11; dv11; dw11 ];
    [ du12; dv12; dw12 ];
    [ du13; dv13; dw13 ];
    [ du14; dv14; dw14 ];
    [ du15; dv15; dw15 ];
    [ du16; dv16; dw16 ];
    [ du17; dv17; dw17 ];
    [ du18; dv18; dw18 ];
    [ du19; dv19; dw19 ] ].

(** * Dispatch: Element.h:139 (L) and Element.h:151 (dL), a static dispatch on the type *)
Definition L (e : element) : list R -> list R :=
  match e with
  | Segment_Linear => Segment_Linear_L
  | Segment_Quadratic => Segment_Quadratic_L
  | Triangle_Linear => Triangle_Linear_L
  | Triangle_Quadratic => Triangle_Quadratic_L
  | Quad_Linear => Quad_Linear_L
  | Quad_Quadratic => Quad_Quadratic_L
  | RectangularQuad_Linear => RectangularQuad_Linear_L
  | RectangularQuad_Quadratic => RectangularQuad_Quadratic_L
  | Tetrahedron_Linear => Tetrahedron_Linear_L
  | Tetrahedron_Quadratic => Tetrahedron_Quadratic_L
  | Hexahedron_Linear => Hexahedron_Linear_L
  | Hexahedron_Quadratic => Hexahedron_Quadratic_L
  | RectangularHexahedron_Linear => RectangularHexahedron_Linear_L
  | RectangularHexahedron_Quadratic => RectangularHexahedron_Quadratic_L
  end.

Definition dL (e : element) : list R -> list (list R) :=
  match e with
  | Segment_Linear => Segment_Linear_dL
  | Segment_Quadratic => Segment_Quadratic_dL
  | Triangle_Linear => Triangle_Linear_dL
  | Triangle_Quadratic => Triangle_Quadratic_dL
  | Quad_Linear => Quad_Linear_dL
  | Quad_Quadratic => Quad_Quadratic_dL
  | RectangularQuad_Linear => RectangularQuad_Linear_dL
  | RectangularQuad_Quadratic => RectangularQuad_Quadratic_dL
  | Tetrahedron_Linear => Tetrahedron_Linear_dL
  | Tetrahedron_Quadratic => Tetrahedron_Quadratic_dL
  | Hexahedron_Linear => Hexahedron_Linear_dL
  | Hexahedron_Quadratic => Hexahedron_Quadratic_dL
  | RectangularHexahedron_Linear => RectangularHexahedron_Linear_dL
  | RectangularHexahedron_Quadratic => RectangularHexahedron_Quadratic_dL
  end.

(** * Traits: Segment.h:13-18, 95-100; Triangle.h:15-23, 122-130; Quad.h:15-23, 141-149;
    RectangularQuad.h:17-25, 156-164; Tetrahedron.h:15-23, 145-153; Hexahedron.h:14-22,
    182-190; RectangularHexahedron.h:15-23, 192-200 *)
Definition CanonicalDimension (e : element) : nat :=
  match e with
  | Segment_Linear | Segment_Quadratic => 1
  | Triangle_Linear | Triangle_Quadratic | Quad_Linear | Quad_Quadratic
  | RectangularQuad_Linear | RectangularQuad_Quadratic => 2
  | _ => 3
  end.

Definition NumberOfNodes (e : element) : nat :=
  match e with
  | Segment_Linear => 2 | Segment_Quadratic => 3
  | Triangle_Linear => 3 | Triangle_Quadratic => 6
  | Quad_Linear => 4 | Quad_Quadratic => 8
  | RectangularQuad_Linear => 4 | RectangularQuad_Quadratic => 8
  | Tetrahedron_Linear => 4 | Tetrahedron_Quadratic => 10
  | Hexahedron_Linear => 8 | Hexahedron_Quadratic => 20
  | RectangularHexahedron_Linear => 8 | RectangularHexahedron_Quadratic => 20
  end.

Definition NumberOfGaussNodes (e : element) : nat :=
  match e with
  | Segment_Linear => 1 | Segment_Quadratic => 2
  | Triangle_Linear => 1 | Triangle_Quadratic => 3
  | Quad_Linear => 4 | Quad_Quadratic => 4
  | RectangularQuad_Linear => 4 | RectangularQuad_Quadratic => 8
  | Tetrahedron_Linear => 1 | Tetrahedron_Quadratic => 4
  | Hexahedron_Linear => 8 | Hexahedron_Quadratic => 8
  | RectangularHexahedron_Linear => 8 | RectangularHexahedron_Quadratic => 4
  end.

Definition NumberOfBoundaryElements (e : element) : nat :=
  match e with
  | Segment_Linear | Segment_Quadratic => 0
  | Triangle_Linear | Triangle_Quadratic => 3
  | Quad_Linear | Quad_Quadratic => 4
  | RectangularQuad_Linear | RectangularQuad_Quadratic => 4
  | Tetrahedron_Linear | Tetrahedron_Quadratic => 4
  | _ => 6
  end.

(** The element type of the boundary ([BoundaryElementType] of the traits). *)
Definition BoundaryElementType (e : element) : option element :=
  match e with
  | Segment_Linear | Segment_Quadratic => None
  | Triangle_Linear | Quad_Linear | RectangularQuad_Linear => Some Segment_Linear
  | Triangle_Quadratic | Quad_Quadratic | RectangularQuad_Quadratic => Some Segment_Quadratic
  | Tetrahedron_Linear => Some Triangle_Linear
  | Tetrahedron_Quadratic => Some Triangle_Quadratic
  | Hexahedron_Linear => Some Quad_Linear
  | Hexahedron_Quadratic => Some Quad_Quadratic
  | RectangularHexahedron_Linear => Some RectangularQuad_Linear
  | RectangularHexahedron_Quadratic => Some RectangularQuad_Quadratic
  end.

(** * Canonical nodes *)

(** Quad.h:64-70 *)
Definition Quad_Linear_canonical_nodes : list (list R) :=
  [ [-1; -1]; [1; -1]; [1; 1]; [-1; 1] ].

(** Quad.h:190-200 *)
Definition Quad_Quadratic_canonical_nodes : list (list R) :=
  [ [-1; -1]; [1; -1]; [1; 1]; [-1; 1]; [0; -1]; [1; 0]; [0; 1]; [-1; 0] ].

(** Hexahedron.h:64-74 *)
Definition Hexahedron_Linear_canonical_nodes : list (list R) :=
  [ [-1; -1; -1]; [1; -1; -1]; [1; 1; -1]; [-1; 1; -1];
    [-1; -1; 1]; [1; -1; 1]; [1; 1; 1]; [-1; 1; 1] ].

(** Hexahedron.h:234-256 *)
Definition Hexahedron_Quadratic_canonical_nodes : list (list R) :=
  [ [-1; -1; -1]; [1; -1; -1]; [1; 1; -1]; [-1; 1; -1];
    [-1; -1; 1]; [1; -1; 1]; [1; 1; 1]; [-1; 1; 1];
    [0; -1; -1]; [1; 0; -1]; [0; 1; -1]; [-1; 0; -1];
    [0; -1; 1]; [1; 0; 1]; [0; 1; 1]; [-1; 0; 1];
    [-1; -1; 0]; [1; -1; 0]; [1; 1; 0]; [-1; 1; 0] ].

(** Segment.h:52-63 and 133-147, Triangle.h:66-76 and 173-189, Tetrahedron.h:73-78 and
    203-214: the nodes of a default constructed element (in the world dimension equal to the
    canonical one; in higher world dimensions the code appends zeros).  Quad and hexahedron:
    Quad.h:74-86, 204-224, Hexahedron.h:78-87, 260-282.  Rectangular elements use the tables
    of the non rectangular ones: RectangularQuad.h:66, 205, RectangularHexahedron.h:65, 244. *)
Definition canonical_nodes (e : element) : list (list R) :=
  match e with
  | Segment_Linear => [ [-1]; [1] ]
  | Segment_Quadratic => [ [-1]; [1]; [0] ]
  | Triangle_Linear => [ [0; 0]; [1; 0]; [0; 1] ]
  | Triangle_Quadratic => [ [0; 0]; [1; 0]; [0; 1]; [0.5; 0]; [0.5; 0.5]; [0; 0.5] ]
  | Quad_Linear => Quad_Linear_canonical_nodes
  | Quad_Quadratic => Quad_Quadratic_canonical_nodes
  | RectangularQuad_Linear => Quad_Linear_canonical_nodes
  | RectangularQuad_Quadratic => Quad_Quadratic_canonical_nodes
  | Tetrahedron_Linear => [ [0; 0; 0]; [1; 0; 0]; [0; 1; 0]; [0; 0; 1] ]
  | Tetrahedron_Quadratic =>
      [ [0; 0; 0]; [1; 0; 0]; [0; 1; 0]; [0; 0; 1];
        [0.5; 0; 0]; [0.5; 0.5; 0]; [0; 0.5; 0]; [0; 0; 0.5]; [0.5; 0; 0.5]; [0; 0.5; 0.5] ]
  | Hexahedron_Linear => Hexahedron_Linear_canonical_nodes
  | Hexahedron_Quadratic => Hexahedron_Quadratic_canonical_nodes
  | RectangularHexahedron_Linear => Hexahedron_Linear_canonical_nodes
  | RectangularHexahedron_Quadratic => Hexahedron_Quadratic_canonical_nodes
  end.

(** * Interpolation *)

(** Sum of the entries of a vector (Eigen's [sum()]). *)
Definition Rsum (l : list R) : R := fold_right Rplus 0 l.

(** Element.h:284-297: each row of [values] is scaled by the value of the shape function of its
    node, and the rows are summed column by column. *)
Definition interpolate (NbCols : nat) (e : element) (xi : list R) (values : list (list R)) : list R :=
  map (fun c => Rsum (map2 (fun row l => nth c row 0 * l) values (L e xi))) (seq 0 NbCols).

(** Element.h:157-159: [nodes()] is interpolated. *)
Definition world_coordinates (Dimension : nat) (e : element) (nodes : list (list R)) (xi : list R) : list R :=
  interpolate Dimension e xi nodes.

(** Element.h:377-381: nodes^T * dL(xi), a Dimension x CanonicalDimension matrix. *)
Definition jacobian (Dimension : nat) (e : element) (nodes : list (list R)) (xi : list R) : list (list R) :=
  map (fun c => map (fun k => Rsum (map2 (fun row d => nth c row 0 * nth k d 0) nodes (dL e xi)))
                    (seq 0 (CanonicalDimension e)))
      (seq 0 Dimension).

(** BaseSegment.h:65, BaseTriangle.h:86, BaseQuad.h:146, BaseTetrahedron.h:112,
    BaseHexahedron.h:177: center() is world_coordinates at this local point.  (The rectangular
    elements store their center: BaseRectangularQuad.h:92, BaseRectangularHexahedron.h:130.) *)
Definition center_local (e : element) : list R :=
  match e with
  | Segment_Linear | Segment_Quadratic => [0]
  | Triangle_Linear | Triangle_Quadratic => [1/3; 1/3]
  | Quad_Linear | Quad_Quadratic | RectangularQuad_Linear | RectangularQuad_Quadratic => [0; 0]
  | Tetrahedron_Linear | Tetrahedron_Quadratic => [1/4; 1/4; 1/4]
  | _ => [0; 0; 0]
  end.

(** * Containment *)

(** /repo/src/Caribou/Config/macros.h.in:4: IN_CLOSED_INTERVAL(a,x,b) is ((x-a)*(x-b) <= 0). *)
Definition IN_CLOSED_INTERVAL (a x b : R) : bool := Rle_bool ((x - a) * (x - b)) 0.

(** BaseSegment.h:66-69, BaseTriangle.h:88-92, BaseQuad.h:148-153, BaseTetrahedron.h:114-119,
    BaseHexahedron.h:179-186, BaseRectangularHexahedron.h:133-140.  BaseRectangularQuad.h does
    not define get_contains_local, so the call does not compile: [None]. *)
Definition contains_local (e : element) (xi : list R) (eps : R) : option bool :=
  let u := nth 0 xi 0 in let v := nth 1 xi 0 in let w := nth 2 xi 0 in
  match e with
  | Segment_Linear | Segment_Quadratic => Some (IN_CLOSED_INTERVAL (-1-eps) u (1+eps))
  | Triangle_Linear | Triangle_Quadratic =>
      Some (Rlt_bool (-eps) u && (Rlt_bool (-eps) v && Rlt_bool (-eps) (1 - u - v)))%bool
  | Quad_Linear | Quad_Quadratic =>
      Some (IN_CLOSED_INTERVAL (-1-eps) u (1+eps) && IN_CLOSED_INTERVAL (-1-eps) v (1+eps))%bool
  | RectangularQuad_Linear | RectangularQuad_Quadratic => None
  | Tetrahedron_Linear | Tetrahedron_Quadratic =>
      Some (Rlt_bool (-eps) u && (Rlt_bool (-eps) v && (Rlt_bool (-eps) w &&
            Rlt_bool (-eps) (1 - u - v - w))))%bool
  | Hexahedron_Linear | Hexahedron_Quadratic
  | RectangularHexahedron_Linear | RectangularHexahedron_Quadratic =>
      Some (IN_CLOSED_INTERVAL (-1-eps) u (1+eps) && (IN_CLOSED_INTERVAL (-1-eps) v (1+eps) &&
            IN_CLOSED_INTERVAL (-1-eps) w (1+eps)))%bool
  end.

(** * Quadrature rules: pairs (local position, weight) *)

(** Segment.h:85-90 *)
Definition Segment_Linear_gauss : list (list R * R) := [ ([0], 2) ].
(** Segment.h:172-178 *)
Definition Segment_Quadratic_gauss : list (list R * R) :=
  [ ([-1 / sqrt 3], 1); ([1 / sqrt 3], 1) ].
(** Triangle.h:102-108 *)
Definition Triangle_Linear_gauss : list (list R * R) := [ ([1/3; 1/3], 1/2) ].
(** Triangle.h:245-253 *)
Definition Triangle_Quadratic_gauss : list (list R * R) :=
  [ ([2/3; 1/6], 1/6); ([1/6; 2/3], 1/6); ([1/6; 1/6], 1/6) ].
(** Quad.h:117-126 *)
Definition Quad_Linear_gauss : list (list R * R) :=
  [ ([-1/sqrt 3; -1/sqrt 3], 1); ([1/sqrt 3; -1/sqrt 3], 1);
    ([1/sqrt 3; 1/sqrt 3], 1); ([-1/sqrt 3; 1/sqrt 3], 1) ].
(** Quad.h:287-296 *)
Definition Quad_Quadratic_gauss : list (list R * R) :=
  [ ([-1/sqrt 3; -1/sqrt 3], 1); ([1/sqrt 3; -1/sqrt 3], 1);
    ([1/sqrt 3; 1/sqrt 3], 1); ([-1/sqrt 3; 1/sqrt 3], 1) ].
(** RectangularQuad.h:132-141 *)
Definition RectangularQuad_Linear_gauss : list (list R * R) :=
  [ ([-1/sqrt 3; -1/sqrt 3], 1); ([1/sqrt 3; -1/sqrt 3], 1);
    ([1/sqrt 3; 1/sqrt 3], 1); ([-1/sqrt 3; 1/sqrt 3], 1) ].
(** RectangularQuad.h:284-293 *)
Definition RectangularQuad_Quadratic_gauss : list (list R * R) :=
  [ ([-1/sqrt 3; -1/sqrt 3], 1); ([1/sqrt 3; -1/sqrt 3], 1);
    ([1/sqrt 3; 1/sqrt 3], 1); ([-1/sqrt 3; 1/sqrt 3], 1) ].
(** Tetrahedron.h:124-130 *)
Definition Tetrahedron_Linear_gauss : list (list R * R) := [ ([1/4; 1/4; 1/4], 1/6) ].
(** Tetrahedron.h:301-310 (the decimal literals are taken as written) *)
Definition Tetrahedron_Quadratic_gauss : list (list R * R) :=
  [ ([0.1381966011250105; 0.1381966011250105; 0.1381966011250105], 1/24);
    ([0.1381966011250105; 0.1381966011250105; 0.5854101966249685], 1/24);
    ([0.1381966011250105; 0.5854101966249685; 0.1381966011250105], 1/24);
    ([0.5854101966249685; 0.1381966011250105; 0.1381966011250105], 1/24) ].
(** Hexahedron.h:152-165 *)
Definition Hexahedron_Linear_gauss : list (list R * R) :=
  [ ([-1/sqrt 3; -1/sqrt 3; -1/sqrt 3], 1); ([1/sqrt 3; -1/sqrt 3; -1/sqrt 3], 1);
    ([-1/sqrt 3; 1/sqrt 3; -1/sqrt 3], 1); ([1/sqrt 3; 1/sqrt 3; -1/sqrt 3], 1);
    ([-1/sqrt 3; -1/sqrt 3; 1/sqrt 3], 1); ([1/sqrt 3; -1/sqrt 3; 1/sqrt 3], 1);
    ([-1/sqrt 3; 1/sqrt 3; 1/sqrt 3], 1); ([1/sqrt 3; 1/sqrt 3; 1/sqrt 3], 1) ].
(** Hexahedron.h:412-425 *)
Definition Hexahedron_Quadratic_gauss : list (list R * R) :=
  [ ([-1/sqrt 3; -1/sqrt 3; -1/sqrt 3], 1); ([1/sqrt 3; -1/sqrt 3; -1/sqrt 3], 1);
    ([-1/sqrt 3; 1/sqrt 3; -1/sqrt 3], 1); ([1/sqrt 3; 1/sqrt 3; -1/sqrt 3], 1);
    ([-1/sqrt 3; -1/sqrt 3; 1/sqrt 3], 1); ([1/sqrt 3; -1/sqrt 3; 1/sqrt 3], 1);
    ([-1/sqrt 3; 1/sqrt 3; 1/sqrt 3], 1); ([1/sqrt 3; 1/sqrt 3; 1/sqrt 3], 1) ].
(** RectangularHexahedron.h:162-175 *)
Definition RectangularHexahedron_Linear_gauss : list (list R * R) :=
  [ ([-1/sqrt 3; -1/sqrt 3; -1/sqrt 3], 1); ([1/sqrt 3; -1/sqrt 3; -1/sqrt 3], 1);
    ([-1/sqrt 3; 1/sqrt 3; -1/sqrt 3], 1); ([1/sqrt 3; 1/sqrt 3; -1/sqrt 3], 1);
    ([-1/sqrt 3; -1/sqrt 3; 1/sqrt 3], 1); ([1/sqrt 3; -1/sqrt 3; 1/sqrt 3], 1);
    ([-1/sqrt 3; 1/sqrt 3; 1/sqrt 3], 1); ([1/sqrt 3; 1/sqrt 3; 1/sqrt 3], 1) ].
(** RectangularHexahedron.h:386-399 *)
Definition RectangularHexahedron_Quadratic_gauss : list (list R * R) :=
  [ ([-1/sqrt 3; -1/sqrt 3; -1/sqrt 3], 1); ([1/sqrt 3; -1/sqrt 3; -1/sqrt 3], 1);
    ([-1/sqrt 3; 1/sqrt 3; -1/sqrt 3], 1); ([1/sqrt 3; 1/sqrt 3; -1/sqrt 3], 1);
    ([-1/sqrt 3; -1/sqrt 3; 1/sqrt 3], 1); ([1/sqrt 3; -1/sqrt 3; 1/sqrt 3], 1);
    ([-1/sqrt 3; 1/sqrt 3; 1/sqrt 3], 1); ([1/sqrt 3; 1/sqrt 3; 1/sqrt 3], 1) ].

(** Element.h (gauss_nodes), static dispatch *)
Definition gauss_nodes (e : element) : list (list R * R) :=
  match e with
  | Segment_Linear => Segment_Linear_gauss
  | Segment_Quadratic => Segment_Quadratic_gauss
  | Triangle_Linear => Triangle_Linear_gauss
  | Triangle_Quadratic => Triangle_Quadratic_gauss
  | Quad_Linear => Quad_Linear_gauss
  | Quad_Quadratic => Quad_Quadratic_gauss
  | RectangularQuad_Linear => RectangularQuad_Linear_gauss
  | RectangularQuad_Quadratic => RectangularQuad_Quadratic_gauss
  | Tetrahedron_Linear => Tetrahedron_Linear_gauss
  | Tetrahedron_Quadratic => Tetrahedron_Quadratic_gauss
  | Hexahedron_Linear => Hexahedron_Linear_gauss
  | Hexahedron_Quadratic => Hexahedron_Quadratic_gauss
  | RectangularHexahedron_Linear => RectangularHexahedron_Linear_gauss
  | RectangularHexahedron_Quadratic => RectangularHexahedron_Quadratic_gauss
  end.

(** The way every client of the elements integrates: sum over the Gauss nodes of
    f(position) * weight (e.g. HyperelasticForcefield.inl:74-175). *)
Definition quadrature (e : element) (f : list R -> R) : R :=
  Rsum (map (fun g => f (fst g) * snd g) (gauss_nodes e)).

(** * Boundary tables *)

(** Triangle.h:110-117, 255-262; Quad.h:128-136, 298-306; RectangularQuad.h:143-151, 295-303;
    Tetrahedron.h:132-140, 312-320; Hexahedron.h:167-177, 427-437; RectangularHexahedron.h:177-187,
    401-411.  Segments have no boundary elements. *)
Definition boundary_elements_node_indices (e : element) : list (list nat) :=
  (match e with
  | Segment_Linear | Segment_Quadratic => []
  | Triangle_Linear => [ [0; 1]; [1; 2]; [2; 0] ]
  | Triangle_Quadratic => [ [0; 1; 3]; [1; 2; 4]; [2; 0; 5] ]
  | Quad_Linear => [ [0; 1]; [1; 2]; [2; 3]; [3; 0] ]
  | Quad_Quadratic => [ [0; 1; 4]; [1; 2; 5]; [2; 3; 6]; [3; 0; 7] ]
  | RectangularQuad_Linear => [ [0; 1]; [1; 2]; [2; 3]; [3; 0] ]
  | RectangularQuad_Quadratic => [ [0; 1; 4]; [1; 2; 5]; [2; 3; 6]; [3; 0; 7] ]
  | Tetrahedron_Linear => [ [0; 2; 1]; [0; 1; 3]; [0; 3; 2]; [3; 1; 2] ]
  | Tetrahedron_Quadratic =>
      [ [0; 2; 1; 6; 5; 4]; [0; 1; 3; 4; 8; 7]; [0; 3; 2; 7; 9; 6]; [3; 1; 2; 8; 5; 9] ]
  | Hexahedron_Linear =>
      [ [0; 3; 2; 1]; [0; 4; 7; 3]; [1; 2; 6; 5]; [0; 1; 5; 4]; [2; 3; 7; 6]; [4; 5; 6; 7] ]
  | Hexahedron_Quadratic =>
      [ [0; 3; 2; 1; 11; 10; 9; 8]; [0; 4; 7; 3; 16; 15; 19; 11]; [1; 2; 6; 5; 9; 18; 13; 17];
        [0; 1; 5; 4; 8; 17; 12; 16]; [2; 3; 7; 6; 10; 19; 14; 18]; [4; 5; 6; 7; 12; 13; 14; 15] ]
  | RectangularHexahedron_Linear =>
      [ [0; 3; 2; 1]; [0; 4; 7; 3]; [1; 2; 6; 5]; [0; 1; 5; 4]; [2; 3; 7; 6]; [4; 5; 6; 7] ]
  | RectangularHexahedron_Quadratic =>
      [ [0; 3; 2; 1; 9; 13; 11; 8]; [0; 4; 7; 3; 10; 17; 15; 9]; [1; 2; 6; 5; 11; 14; 18; 12];
        [0; 1; 5; 4; 8; 12; 16; 10]; [2; 3; 7; 6; 13; 15; 19; 14]; [4; 5; 6; 7; 16; 18; 19; 17] ]
  end)%nat.

(** Tetrahedron.h:85-95, 243-253; Hexahedron.h:94-110, 321-337; RectangularHexahedron.h:92-108,
    282-298: edges() of the volume elements. *)
Definition edges (e : element) : list (list nat) :=
  (match e with
  | Tetrahedron_Linear => [ [0; 1]; [1; 2]; [2; 0]; [0; 3]; [3; 1]; [3; 2] ]
  | Tetrahedron_Quadratic =>
      [ [0; 1; 4]; [1; 2; 5]; [2; 0; 6]; [0; 3; 7]; [3; 1; 8]; [3; 2; 9] ]
  | Hexahedron_Linear =>
      [ [0; 1]; [1; 2]; [2; 3]; [3; 0]; [4; 5]; [5; 6]; [6; 7]; [7; 4]; [0; 4]; [1; 5]; [2; 6]; [3; 7] ]
  | Hexahedron_Quadratic =>
      [ [0; 1; 8]; [1; 2; 9]; [2; 3; 10]; [3; 0; 11]; [4; 5; 12]; [5; 6; 13]; [6; 7; 14]; [7; 4; 15];
        [0; 4; 16]; [1; 5; 17]; [2; 6; 18]; [3; 7; 19] ]
  | RectangularHexahedron_Linear =>
      [ [0; 1]; [1; 2]; [2; 3]; [3; 0]; [4; 5]; [5; 6]; [6; 7]; [7; 4]; [0; 4]; [1; 5]; [2; 6]; [3; 7] ]
  | RectangularHexahedron_Quadratic =>
      [ [0; 1; 8]; [1; 2; 9]; [2; 3; 10]; [3; 0; 11]; [4; 5; 12]; [5; 6; 13]; [6; 7; 14]; [7; 4; 15];
        [0; 4; 16]; [1; 5; 17]; [2; 6; 18]; [3; 7; 19] ]
  | _ => boundary_elements_node_indices e
  end)%nat.

(** * Quadratic elements built from linear ones *)

(** Triangle.h:192-199, Quad.h:227-236, Tetrahedron.h:217-228, Hexahedron.h:285-306: the first
    nodes are copied, the others are the world coordinates of the linear element at the listed
    local points. *)
Definition quadratic_of_linear (Dimension : nat) (linear : element) (nodes : list (list R))
  : option (element * list (list R)) :=
  let world := world_coordinates Dimension linear nodes in
  let node i := nth i nodes [] in
  match linear with
  | Triangle_Linear =>
      Some (Triangle_Quadratic,
            [ node 0%nat; node 1%nat; node 2%nat; world [0.5; 0]; world [0.5; 0.5]; world [0; 0.5] ])
  | Quad_Linear =>
      let canonical i := nth i Quad_Quadratic_canonical_nodes [] in
      Some (Quad_Quadratic,
            [ node 0%nat; node 1%nat; node 2%nat; node 3%nat;
              world (canonical 4%nat); world (canonical 5%nat);
              world (canonical 6%nat); world (canonical 7%nat) ])
  | Tetrahedron_Linear =>
      Some (Tetrahedron_Quadratic,
            [ node 0%nat; node 1%nat; node 2%nat; node 3%nat;
              world [0.5; 0; 0]; world [0.5; 0.5; 0]; world [0; 0.5; 0];
              world [0; 0; 0.5]; world [0.5; 0; 0.5]; world [0; 0.5; 0.5] ])
  | Hexahedron_Linear =>
      let canonical i := nth i Hexahedron_Quadratic_canonical_nodes [] in
      Some (Hexahedron_Quadratic,
            [ node 0%nat; node 1%nat; node 2%nat; node 3%nat;
              node 4%nat; node 5%nat; node 6%nat; node 7%nat;
              world (canonical 8%nat); world (canonical 9%nat); world (canonical 10%nat);
              world (canonical 11%nat); world (canonical 12%nat); world (canonical 13%nat);
              world (canonical 14%nat); world (canonical 15%nat); world (canonical 16%nat);
              world (canonical 17%nat); world (canonical 18%nat); world (canonical 19%nat) ])
  | _ => None
  end.
