(** Element::contains_local with IEEE doubles. *)

From Coq Require Import ZArith List Bool.
From Flocq Require Import IEEE754.BinarySingleNaN.
From Verif Require Import ShapeModel FpModel.
Import ListNotations.
Open Scope Z_scope.

(** /repo/src/Caribou/Config/macros.h.in:4: IN_CLOSED_INTERVAL(a,x,b) is (((x)-(a)) * ((x)-(b)) <= 0). *)
Definition fIN_CLOSED_INTERVAL (a x b : double) : bool := fle (fmul (fsub x a) (fsub x b)) (of_int 0).

(** BaseSegment.h:66-69, BaseTriangle.h:88-92, BaseQuad.h:148-153, BaseTetrahedron.h:114-119,
    BaseHexahedron.h:179-186, BaseRectangularHexahedron.h:133-140.  BaseRectangularQuad.h does not define get_contains_local: [None]. *)
Definition fcontains_local (e : element) (xi : list double) (eps : double) : option bool :=
  let u := nth 0 xi (of_int 0) in let v := nth 1 xi (of_int 0) in let w := nth 2 xi (of_int 0) in
  let lo := fsub (of_int (-1)) eps in let hi := fadd (of_int 1) eps in
  match e with
  | Segment_Linear | Segment_Quadratic => Some (fIN_CLOSED_INTERVAL lo u hi)
  | Triangle_Linear | Triangle_Quadratic =>
      Some (flt (fneg eps) u && (flt (fneg eps) v && flt (fneg eps) (fsub (fsub (of_int 1) u) v)))%bool
  | Quad_Linear | Quad_Quadratic => Some (fIN_CLOSED_INTERVAL lo u hi && fIN_CLOSED_INTERVAL lo v hi)%bool
  | RectangularQuad_Linear | RectangularQuad_Quadratic => None
  | Tetrahedron_Linear | Tetrahedron_Quadratic =>
      Some (flt (fneg eps) u && (flt (fneg eps) v && (flt (fneg eps) w &&
            flt (fneg eps) (fsub (fsub (fsub (of_int 1) u) v) w))))%bool
  | Hexahedron_Linear | Hexahedron_Quadratic
  | RectangularHexahedron_Linear | RectangularHexahedron_Quadratic =>
      Some (fIN_CLOSED_INTERVAL lo u hi && (fIN_CLOSED_INTERVAL lo v hi && fIN_CLOSED_INTERVAL lo w hi))%bool
  end.

(** The default tolerances: 1e-10 (Element.h:272) and, for Python, 1e-15 (Python/Geometry/Element.h:43).  10^10 and 10^15 are doubles,
    so these quotients are the nearest doubles. *)
Definition default_eps : double := fdiv (of_int 1) (of_int (10 ^ 10)).
Definition python_eps : double := fdiv (of_int 1) (of_int (10 ^ 15)).
