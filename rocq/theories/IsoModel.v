(** The implicit surfaces: /repo/src/SofaCaribou/Topology/CircleIsoSurface.h, SphereIsoSurface.h and CylinderIsoSurface.h.
    Reals are exact.  The overload IsoSurface.h:23-26 for SOFA's coordinates, which has no return statement and is never
    used, is not modelled. *)

From Coq Require Import Reals List.
From Verif Require Import GridGeoModel.
Import ListNotations.
Open Scope R_scope.

(** (x-c).dot(x-c) *)
Fixpoint squared_distance (x c : list R) : R :=
  match x, c with a :: x, b :: c => (a - b) * (a - b) + squared_distance x c | _, _ => 0 end.

(** CircleIsoSurface.h:24-30 and SphereIsoSurface.h:24-30: the same code in dimensions 2 and 3. *)
Definition circle_iso_value (radius : R) (center : list R) (x : list R) : R :=
  squared_distance x center - radius * radius.
Definition sphere_iso_value (radius : R) (center : list R) (x : list R) : R :=
  squared_distance x center - radius * radius.
(** CylinderIsoSurface.h:25-31: the first two coordinates; the length (line 21) is not used. *)
Definition cylinder_iso_value (radius length : R) (center : list R) (x : list R) : R :=
  squared_distance (firstn 2 x) (firstn 2 center) - radius * radius.
