(** Vocabulary for intersection tests (C23, C24). *)

From Coq Require Import Reals List.
From Verif Require Import GridGeoModel ShapeModel LinAlg RectModel RectSpec.
Import ListNotations.
Open Scope R_scope.

(** The closed cube [-1,1]^3. *)
Definition in_cube (xi : list R) : Prop := length xi = 3%nat /\ Forall (fun x => -1 <= x <= 1) xi.

(** The closed box of a rectangular hexahedron: its centre plus at most half of each size along each axis. *)
Definition in_box (r : rectangular) (x : list R) : Prop :=
  exists xi, in_cube xi /\ x = RH_world_coordinates r xi.

(** The closed segment between a and b, the closed triangle a b c. *)
Definition on_segment (a b x : list R) : Prop :=
  exists t, 0 <= t <= 1 /\ x = vadd (vscale (1 - t) a) (vscale t b).
Definition on_triangle (a b c x : list R) : Prop :=
  exists s t u, 0 <= s /\ 0 <= t /\ 0 <= u /\ s + t + u = 1 /\ x = vadd (vscale s a) (vadd (vscale t b) (vscale u c)).

(** The closed hexahedron of given type and nodes: the image of the cube. *)
Definition in_hexahedron (e : element) (nodes : list (list R)) (x : list R) : Prop :=
  exists xi, in_cube xi /\ x = world_coordinates 3 e nodes xi.
(** At least 1e-5 away from the centre of the hexahedron, or in it. *)
Definition well_located (e : element) (nodes : list (list R)) (x : list R) : Prop :=
  1e-5 * 1e-5 <= squared_distance 3 e nodes x [0; 0; 0] \/ in_hexahedron e nodes x.
