(** Vocabulary for C108: corotational force fields in other units. *)

From Coq Require Import Reals List.
From Verif Require Import GridGeoModel ShapeModel LinAlg BarycentricModel SparseModel HyperModel CorotModel UnitsSpec.
Import ListNotations.
Open Scope R_scope.

Definition mesh_in_unit (a : R) (m : mesh) : mesh := {| type := type m; x0 := scaled a (x0 m); elements := elements m |}.
(** What the user and the solver do, with lengths times a and pressures times b. *)
Definition call_in_units (a b : R) (c : call) : call :=
  match c with
  | SetData c E nu => SetData c (b * E) nu
  | AddForce x f => AddForce (scaled a x) (scaled (b * (a * a)) f)
  | AddDForce k dx df => AddDForce k (scaled a dx) (scaled (b * (a * a)) df)
  | c => c
  end.
(** The entries of a stiffness matrix: forces by lengths. *)
Definition entries_in_units (a b : R) (ts : list triplet) : list triplet := map (fun t => (fst t, b * a * snd t)) ts.
