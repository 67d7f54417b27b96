(** Rectangular quads and hexahedra: /repo/src/Caribou/Geometry/BaseRectangularQuad.h,
    BaseRectangularHexahedron.h, RectangularQuad.h, RectangularHexahedron.h, the frame of BaseHexahedron.h,
    and the Newton iterations of Element.h.  Reals are exact. *)

From Coq Require Import Reals List.
From Flocq Require Import Core.Raux.
From Verif Require Import GridGeoModel ShapeModel LinAlg.
Import ListNotations.
Open Scope R_scope.

(** BaseRectangularHexahedron.h:166-168, BaseRectangularQuad.h:99-101 *)
Record rectangular := { p_center : list R; p_H : list R; p_R : list (list R) }.

(** p_H / 2. *)
Definition half_size (r : rectangular) : list R := map (fun h => h / 2) (p_H r).

(** BaseRectangularHexahedron.h:80-82 *)
Definition RH_world_coordinates (r : rectangular) (xi : list R) : list R :=
  vadd (p_center r) (matvec (p_R r) (cwiseProduct xi (half_size r))).

(** BaseRectangularHexahedron.h:85-87 *)
Definition RH_local_coordinates (r : rectangular) (x : list R) : list R :=
  cwiseQuotient (matvec (transpose 3 (p_R r)) (vminus x (p_center r))) (half_size r).

(** BaseRectangularHexahedron.h:90-94, with the default tolerance of Element.h:272 *)
Definition RH_contains (r : rectangular) (x : list R) : option bool :=
  contains_local RectangularHexahedron_Linear (RH_local_coordinates r x) 1e-10.

(** BaseRectangularQuad.h:74-83 *)
Definition RQ_T (Dimension : nat) (r : rectangular) (xi : list R) : list R :=
  let p := cwiseProduct xi (half_size r) in
  vadd (p_center r) (matvec (p_R r) (if Nat.eqb Dimension 2 then p else p ++ [0])).

(** RectangularHexahedron.h:149-160 and the same for the quadratic one: node i is the world position of
    canonical node i.  RectangularQuad.h:119-130 likewise with T. *)
Definition RH_nodes (e : element) (r : rectangular) : list (list R) :=
  map (RH_world_coordinates r) (canonical_nodes e).
Definition RQ_nodes (Dimension : nat) (e : element) (r : rectangular) : list (list R) :=
  map (RQ_T Dimension r) (canonical_nodes e).

(** BaseHexahedron.h:104-140: columns u, v, w. *)
Definition hexahedron_frame (e : element) (nodes : list (list R)) (local_point : list R) : list (list R) :=
  let world := world_coordinates 3 e nodes in
  let p := world local_point in
  let l0 := nth 0 local_point 0 in let l1 := nth 1 local_point 0 in let l2 := nth 2 local_point 0 in
  let projected_on_u := world [1; l1; l2] in
  let projected_on_v := world [l0; 1; l2] in
  let point_to_u := vminus projected_on_u p in
  let point_to_v := vminus projected_on_v p in
  let u := normalized point_to_u in
  let v := normalized point_to_v in
  let w := normalized (vcross u v) in
  let v := normalized (vcross w u) in
  transpose 3 [u; v; w].

(** BaseHexahedron.h:177, RectangularHexahedron.h:71-75 and 250-255: rectangular hexahedron fitted to a
    hexahedron. *)
Definition RectangularHexahedron_of (e : element) (nodes : list (list R)) : rectangular :=
  let node i := nth i nodes [] in
  {| p_center := world_coordinates 3 e nodes [0; 0; 0];
     p_H := [ norm (vminus (node 1%nat) (node 0%nat)); norm (vminus (node 3%nat) (node 0%nat));
              norm (vminus (node 4%nat) (node 0%nat)) ];
     p_R := hexahedron_frame e nodes [0; 0; 0] |}.

(** * Element.h:223-265: local coordinates by Newton iterations *)

(** Lines 247-256: one update of xi. *)
Definition newton_step (Dimension : nat) (e : element) (nodes : list (list R)) (x xi : list R) : list R :=
  let residual := vminus x (world_coordinates Dimension e nodes xi) in
  let J := jacobian Dimension e nodes xi in
  let k := CanonicalDimension e in
  let dxi :=
    if Nat.eqb Dimension k then matvec (inverse J) residual
    else matvec (inverse (matmul k (transpose k J) J)) (matvec (transpose k J) residual) in
  vadd xi dxi.

(** squaredNorm of the residual at xi (lines 236-237, 257-258) *)
Definition residual_norm_2 (Dimension : nat) (e : element) (nodes : list (list R)) (x xi : list R) : R :=
  squaredNorm (vminus x (world_coordinates Dimension e nodes xi)).

(** Lines 246-262: the do/while loop; [remaining] is maximum_number_of_iterations - iteration before the body.
    The body is executed at least once. *)
Fixpoint newton_loop (Dimension : nat) (e : element) (nodes : list (list R)) (x : list R)
    (r0_norm_2 squared_threshold : R) (remaining : nat) (xi : list R) : list R :=
  let xi' := newton_step Dimension e nodes x xi in
  match remaining with
  | O | S O => xi'
  | S remaining' =>
      if Rle_bool (r0_norm_2 * squared_threshold) (residual_norm_2 Dimension e nodes x xi')
      then newton_loop Dimension e nodes x r0_norm_2 squared_threshold remaining' xi'
      else xi'
  end.

(** Lines 223-265 *)
Definition local_coordinates_from (Dimension : nat) (e : element) (nodes : list (list R)) (x starting_point : list R)
    (residual_tolerance : R) (maximum_number_of_iterations : nat) : list R :=
  let squared_threshold := residual_tolerance * residual_tolerance in
  let r0_norm_2 := residual_norm_2 Dimension e nodes x starting_point in
  if Rlt_bool r0_norm_2 squared_threshold then starting_point
  else newton_loop Dimension e nodes x r0_norm_2 squared_threshold maximum_number_of_iterations starting_point.

(** Lines 169-171 *)
Definition local_coordinates (Dimension : nat) (e : element) (nodes : list (list R)) (x : list R) : list R :=
  local_coordinates_from Dimension e nodes x (repeat 0 (CanonicalDimension e)) 1e-5 5.
