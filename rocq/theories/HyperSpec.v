(** Vocabulary for the hyperelastic force field (C55-C58, C69). *)

From Coq Require Import Reals List Arith.
From Verif Require Import GridGeoModel ShapeModel LinAlg BarycentricModel MappingSpec HyperModel.
Import ListNotations.
Open Scope R_scope.

(** x + t v, node by node. *)
Definition displaced (x v : list (list R)) (t : R) : list (list R) := map2 (fun p u => vadd p (vscale t u)) x v.

(** The same element with the nodes at the positions x. *)
Definition moved (d : domain) (x : list (list R)) : domain :=
  {| dim := dim d; kind := kind d; positions := x; connectivity := connectivity d |}.

(** Volumetric meshes of nodes of R^3. *)
Definition solid (d : domain) : Prop :=
  well_formed d /\ CanonicalDimension (kind d) = 3%nat /\ field (length (positions d)) 3 (positions d).
(** No element refers twice to the same node. *)
Definition distinct_nodes (d : domain) : Prop := Forall (@NoDup nat) (connectivity d).

(** Determinant of the jacobian of the map from the reference element, at a local point, for the node positions of d. *)
Definition local_volume (d : domain) (row : list nat) (xi : list R) : R :=
  det (jacobian 3 (kind d) (nodes_of_element d row) xi).

(** No element is degenerate at rest (at its Gauss points)... *)
Definition regular (d : domain) : Prop :=
  Forall (fun row => Forall (fun g => local_volume d row (fst g) <> 0) (gauss_nodes (kind d))) (connectivity d).
(** ... and none is inverted when the nodes are at x. *)
Definition not_inverted (d : domain) (x : list (list R)) : Prop :=
  Forall (fun row => Forall (fun g => 0 < local_volume (moved d x) row (fst g) * local_volume d row (fst g)) (gauss_nodes (kind d)))
         (connectivity d).

(** Sum over the nodes of x_i ^ f_i. *)
Definition moment (x f : list (list R)) : list R :=
  map (fun c => Rsum (map2 (fun p q => nth c (vcross p q) 0) x f)) (seq 0 3).

(** [interleaving threads order]: the elements are handled by several threads, each going through its own list; [order] is
    a possible order of all of them. *)
Inductive interleaving : list (list nat) -> list nat -> Prop :=
  | all_done : forall threads, Forall (fun t => t = []) threads -> interleaving threads []
  | one_step : forall before id t after order,
      interleaving (before ++ t :: after) order -> interleaving (before ++ (id :: t) :: after) (id :: order).

(** State of the component after a sequence of calls. *)
Definition after (d : domain) (c : component) (calls : list call) : component :=
  fold_left (fun c a => fst (step d c a)) calls c.
(** Calls that do not compute the forces; calls that do not use the stiffness either. *)
Definition not_addForce (a : call) : Prop := match a with AddForce _ => False | _ => True end.
Definition no_stiffness (a : call) : Prop :=
  match a with AddForce _ | AddDForce _ _ _ | AddKToMatrix _ _ => False | _ => True end.
