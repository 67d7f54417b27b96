(** Vocabulary for C108: the same scene described in other units. *)

From Coq Require Import Reals List.
From Verif Require Import GridGeoModel ShapeModel LinAlg BarycentricModel MaterialModel HyperModel HyperSpec TractionModel.
Import ListNotations.
Open Scope R_scope.

(** Vectors whose coordinates are measured with another unit: a times as many. *)
Definition scaled (a : R) (X : list (list R)) : list (list R) := map (vscale a) X.
(** A mesh measured in another unit of length: 1000 for millimetres instead of metres. *)
Definition in_length_unit (a : R) (d : domain) : domain := moved d (scaled a (positions d)).
(** A material whose moduli are given in another unit of pressure. *)
Definition in_pressure_unit (b : R) (m : material) : material := {| kind_of := kind_of m; mu := b * mu m; lambda := b * lambda m |}.
(** A traction, a pressure, on a surface. *)
Definition load_in_units (a b : R) (c : config) : config :=
  {| surface := in_length_unit a (surface c); traction := vscale b (traction c); slope := slope c; steps_before_increment := steps_before_increment c |}.
(** The state of this load. *)
Definition state_in_units (a b : R) (s : state) : state :=
  {| nodal_forces := scaled (b * (a * a)) (nodal_forces s); total_load := b * (a * a) * total_load s; is_constant := is_constant s;
     current_traction := vscale b (current_traction s); steps_since_last_increment := steps_since_last_increment s |}.
(** A test on a segment and an element answers the same in every unit of length. *)
Definition unit_free (test : list (list R) -> list R -> list R -> bool) : Prop :=
  forall c nodes p q, 0 < c -> test (scaled c nodes) (vscale c p) (vscale c q) = test nodes p q.
