(** Vocabulary for the corotational force fields (C59, C60, C70, C71). *)

From Coq Require Import Reals List Arith.
From Verif Require Import GridGeoModel ShapeModel LinAlg TensorModel TensorSpec MaterialSpec MappingSpec HyperModel CorotModel.
Import ListNotations.
Open Scope R_scope.

(** The mesh: every element has the nodes of its type, they exist, and no element is degenerate at rest. *)
Definition valid_mesh (m : mesh) : Prop :=
  elements m <> [] /\ field (length (x0 m)) 3 (x0 m) /\
  Forall (fun row => length row = NumberOfNodes (kind_of_elements (type m)) /\ Forall (fun i => (i < length (x0 m))%nat) row /\
            Forall (fun g => det (jacobian 3 (kind_of_elements (type m)) (gather (x0 m) row) (fst g)) <> 0) (integration_points (type m)))
         (elements m).

(** Q p + t, node by node. *)
Definition rigid (Q : list (list R)) (t : list R) (x : list (list R)) : list (list R) := map (fun p => vadd (matvec Q p) t) x.

(** The option corotated is never changed to another value. *)
Definition keeps_corotated (c : bool) (a : call) : Prop := match a with SetData c' _ _ => c' = c | _ => True end.

(** Gradient, with respect to the rest positions, of a nodal field u at a local point of an element. *)
Definition field_gradient (k : elastic) (x0 u : list (list R)) (row : list nat) (xi : list R) : list (list R) :=
  product (jacobian 3 (kind_of_elements k) (gather u row) xi) (inverse (jacobian 3 (kind_of_elements k) (gather x0 row) xi)).
(** Symmetric part, trace. *)
Definition small_strain (G : list (list R)) : list (list R) := of_entries (fun i j => / 2 * (entries G i j + entries G j i)).
Definition tr (M : list (list R)) : R := sum3 (fun i => entries M i i).
(** Work of the stress of isotropic linear elasticity for the displacement u on the displacement v. *)
Definition linear_elastic_work (m : mesh) (E nu : R) (u v : list (list R)) : R :=
  let l := E * nu / ((1 + nu) * (1 - 2 * nu)) in
  let mu := E / (2 * (1 + nu)) in
  Rsum (map (fun row => Rsum (map (fun g =>
      let eu := small_strain (field_gradient (type m) (x0 m) u row (fst g)) in
      let ev := small_strain (field_gradient (type m) (x0 m) v row (fst g)) in
      snd g * det (jacobian 3 (kind_of_elements (type m)) (gather (x0 m) row) (fst g)) *
      (l * tr eu * tr ev + 2 * mu * double_dot eu ev)) (integration_points (type m)))) (elements m)).
