(** Segment and triangle versus hexahedron tests: /repo/src/Caribou/Geometry/BaseRectangularHexahedron.h:96-121 and
    171-275; the same code is in BaseHexahedron.h:147-167 and 227-331.  Reals are exact. *)

From Coq Require Import Reals List ZArith.
From Flocq Require Import Core.Raux.
From Verif Require Import GridGeoModel ShapeModel LinAlg RectModel.
Import ListNotations.
Open Scope R_scope.

(** Component i of a 3D vector. *)
Definition at_ (v : list R) (i : nat) : R := nth i v 0.

(** BaseRectangularHexahedron.h:171-206 (BaseHexahedron.h:227-262) *)
Definition intersects_local_segment (v0 v1 : list R) (eps : R) : bool :=
  let edge i := at_ v1 i - at_ v0 i in
  let edge_sign i := if Rlt_bool (edge i) 0 then -1 else 1 in
  (forallb (fun i =>
      negb (Rlt_bool (1 + eps) (at_ v0 i * edge_sign i)) &&
      negb (Rlt_bool (at_ v1 i * edge_sign i) (-1 - eps))) [0; 1; 2]%nat &&
   forallb (fun i =>
      let iplus1 := ((i + 1) mod 3)%nat in
      let iplus2 := ((i + 2) mod 3)%nat in
      let rhomb_normal_dot_v0 := edge iplus2 * at_ v0 iplus1 - edge iplus1 * at_ v0 iplus2 in
      let rhomb_normal_dot_cubedge := edge iplus2 * edge_sign iplus1 + edge iplus1 * edge_sign iplus2 in
      let r := rhomb_normal_dot_v0 * rhomb_normal_dot_v0 - rhomb_normal_dot_cubedge * rhomb_normal_dot_cubedge in
      negb (Rlt_bool eps r)) [0; 1; 2]%nat)%bool.

(** The macro of line 208: ((b > x) - (a > x)). *)
Definition seg_contains_point (a b x : R) : Z :=
  (Z.b2z (Rlt_bool x b) - Z.b2z (Rlt_bool x a))%Z.

(** The pairs (nodes[i], nodes[(i+1)%NNodes]) of the loops at lines 215-217 and 253-255. *)
Definition polygon_edges (nodes : list (list R)) : list (list R * list R) :=
  map (fun i => (nth i nodes [], nth ((i + 1) mod length nodes) nodes [])) (seq 0 (length nodes)).

(** Lines 257-270: what the edge p1 p2 adds to count. *)
Definition crossing (xaxis yaxis : nat) (p : list R) (eps : R) (edge : list R * list R) : Z :=
  let (p1, p2) := edge in
  let xdirection := seg_contains_point (at_ p1 xaxis - eps) (at_ p2 xaxis + eps) (at_ p xaxis) in
  if Z.eqb xdirection 0 then 0%Z
  else if Z.eqb (seg_contains_point (at_ p1 yaxis - eps) (at_ p2 yaxis + eps) (at_ p yaxis)) 0 then
         (if Rle_bool (at_ p2 yaxis) (at_ p yaxis) then xdirection else 0%Z)
       else
         (if Rle_bool (IZR xdirection * (at_ p xaxis - at_ p1 xaxis) * (at_ p2 yaxis - at_ p1 yaxis))
                      (IZR xdirection * (at_ p yaxis - at_ p1 yaxis) * (at_ p2 xaxis - at_ p1 xaxis))
          then xdirection else 0%Z).

(** Lines 210-275 (BaseHexahedron.h:266-331).  When the normal is the zero vector, t is 0/0: the comparison of
    line 231 with a NaN is false and the function returns false. *)
Definition intersects_local_polygon (nodes : list (list R)) (polynormal : list R) (eps : R) : bool :=
  if existsb (fun e => intersects_local_segment (fst e) (snd e) eps) (polygon_edges nodes) then true
  else
    let best_diagonal := map (fun x => if Rlt_bool x 0 then -1 else 1) polynormal in
    if Req_bool (vdot polynormal best_diagonal) 0 then false
    else
      let t := vdot polynormal (nth 0 nodes []) / vdot polynormal best_diagonal in
      if negb (IN_CLOSED_INTERVAL (-1 - eps) t (1 + eps)) then false
      else
        let p := map (fun x => x * t) best_diagonal in
        let a i := Rabs (at_ polynormal i) in
        let zaxis := if Rlt_bool (a 1%nat) (a 0%nat) then (if Rlt_bool (a 2%nat) (a 0%nat) then 0 else 2)%nat
                     else (if Rlt_bool (a 2%nat) (a 1%nat) then 1 else 2)%nat in
        let xaxis := if Rlt_bool (at_ polynormal zaxis) 0 then ((zaxis + 2) mod 3)%nat else ((zaxis + 1) mod 3)%nat in
        let yaxis := if Rlt_bool (at_ polynormal zaxis) 0 then ((zaxis + 1) mod 3)%nat else ((zaxis + 2) mod 3)%nat in
        let count := fold_left (fun c e => (c + crossing xaxis yaxis p eps e)%Z) (polygon_edges nodes) 0%Z in
        negb (Z.eqb count 0).

(** Lines 118-120 *)
Definition intersects_local_triangle (nodes : list (list R)) (eps : R) : bool :=
  let node i := nth i nodes [] in
  let normal := normalized (vcross (vminus (node 1%nat) (node 2%nat)) (vminus (node 2%nat) (node 0%nat))) in
  intersects_local_polygon nodes normal eps.

(** Lines 102-104 *)
Definition RH_intersects_segment (r : rectangular) (n0 n1 : list R) (eps : R) : bool :=
  intersects_local_segment (RH_local_coordinates r n0) (RH_local_coordinates r n1) eps.
(** Lines 112-121 *)
Definition RH_intersects_triangle (r : rectangular) (nodes : list (list R)) (eps : R) : bool :=
  intersects_local_triangle (map (RH_local_coordinates r) nodes) eps.

(** BaseHexahedron.h:148-150 and 158-167: general hexahedra, with the iterative local coordinates. *)
Definition Hexahedron_intersects_segment (e : element) (nodes : list (list R)) (n0 n1 : list R) (eps : R) : bool :=
  intersects_local_segment (local_coordinates 3 e nodes n0) (local_coordinates 3 e nodes n1) eps.
Definition Hexahedron_intersects_triangle (e : element) (nodes : list (list R)) (t : list (list R)) (eps : R) : bool :=
  intersects_local_triangle (map (local_coordinates 3 e nodes) t) eps.
