(** Vocabulary for the traction force field (C62, C63). *)

From Coq Require Import Reals List Arith.
From Verif Require Import GridGeoModel ShapeModel LinAlg BarycentricModel MappingSpec TractionModel.
Import ListNotations.
Open Scope R_scope.

(** A surface mesh with the traction given in the same dimension. *)
Definition surface_mesh (c : config) : Prop :=
  well_formed (surface c) /\ length (traction c) = dim (surface c) /\ CanonicalDimension (kind (surface c)) = 2%nat.

(** Integral over the surface of a function given at the Gauss nodes, by quadrature: the sum over the elements and
    their Gauss nodes of weight * |area factor| * f(element, position). *)
Definition surface_integral (d : domain) (f : list nat -> list R -> R) : R :=
  Rsum (map (fun row => Rsum (map (fun g => snd g * area_factor d (nodes_of_element d row) (fst g) * f row (fst g))
                                  (gauss_nodes (kind d)))) (connectivity d)).
Definition area (d : domain) : R := surface_integral d (fun _ _ => 1).

(** Value at the local point xi of an element of a nodal field v. *)
Definition field_at (d : domain) (D : nat) (v : list (list R)) (row : list nat) (xi : list R) : list R :=
  interpolate D (kind d) xi (map (fun i => nth i v []) row).

(** Number of increments done by k steps: one at the first step, then one every n steps. *)
Definition increments (n k : nat) : nat := match k with O => O | S k => S (k / Nat.max 1 n) end.
