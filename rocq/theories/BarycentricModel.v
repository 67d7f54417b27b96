(** Points embedded in a domain: /repo/src/Caribou/Topology/BarycentricContainer.h, and Domain.h:316-340.
    Simplifications: exact reals; the ids returned by the hash grid are visited in the order of
    HashGridModel.get (the code visits a std::set in increasing order). *)

From Coq Require Import ZArith Reals List.
From Flocq Require Import Core.Raux.
From Verif Require Import GridGeoModel HashGridModel ShapeModel LinAlg RectModel.
Import ListNotations.
Open Scope R_scope.

(** A domain of elements of type [kind] in dimension [dim], with the positions of the nodes of its mesh and the node
    indices of each of its elements. *)
Record domain := { dim : nat; kind : element; positions : list (list R); connectivity : list (list nat) }.

(** Domain.h:316-340: element(id): the positions of its nodes. *)
Definition nodes_of_element (d : domain) (row : list nat) : list (list R) := map (fun i => nth i (positions d) []) row.
Definition elements (d : domain) : list (list (list R)) := map (nodes_of_element d) (connectivity d).

(** Lines 95-98: max - min of an element. *)
Definition element_size (nodes : list (list R)) : list R := vminus (colwise Rmax nodes) (colwise Rmin nodes).

(** Lines 91-100 *)
Definition H_mean (d : domain) : list R :=
  map (fun x => x / INR (length (connectivity d)))
      (fold_left vadd (map element_size (elements d)) (repeat 0 (dim d))).

(** Eigen's maxCoeff *)
Definition maxCoeff (v : list R) : R := match v with [] => 0 | x :: v => fold_left Rmax v x end.

(** Lines 83-108: cell size and content of the hash grid; None is the exception of line 86. *)
Definition build (d : domain) : option (R * table) :=
  match connectivity d with
  | [] => None
  | _ =>
      let h := maxCoeff (H_mean d) in
      Some (h, run h (combine (elements d) (map Z.of_nat (seq 0 (length (connectivity d))))))
  end.

(** Lines 44-51 *)
Definition barycentric_point_t : Type := (Z * list R)%type.

(** Lines 126-136: first candidate that contains the point. *)
Fixpoint first_containing (d : domain) (p : list R) (candidates : list Z) : barycentric_point_t :=
  match candidates with
  | [] => ((-1)%Z, repeat 0 (CanonicalDimension (kind d)))
  | id :: candidates =>
      let e := nth (Z.to_nat id) (elements d) [] in
      let xi := local_coordinates (dim d) (kind d) e p in
      match contains_local (kind d) xi 1e-10 with
      | Some true => (id, xi)
      | _ => first_containing d p candidates
      end
  end.
Definition barycentric_point (d : domain) (grid : R * table) (p : list R) : barycentric_point_t :=
  first_containing d p (get (fst grid) (snd grid) p).

(** Lines 142-155 *)
Definition closest_elements (d : domain) (grid : R * table) (p : list R) : list barycentric_point_t :=
  map (fun id => (id, local_coordinates (dim d) (kind d) (nth (Z.to_nat id) (elements d) []) p))
      (get (fst grid) (snd grid) p).

(** Lines 260-284: the members p_barycentric_points and p_outside_nodes. *)
Record container := { barycentric_points : list barycentric_point_t; outside_nodes : list nat }.
Definition push_point (d : domain) (grid : R * table) (c : container) (node : nat * list R) : container :=
  let bp := barycentric_point d grid (snd node) in
  {| barycentric_points := barycentric_points c ++ [bp];
     outside_nodes := if (fst bp <? 0)%Z then outside_nodes c ++ [fst node] else outside_nodes c |}.
Definition set_embedded_points (d : domain) (grid : R * table) (points : list (list R)) : container :=
  fold_left (push_point d grid) (combine (seq 0 (length points)) points)
            {| barycentric_points := []; outside_nodes := [] |}.

(** Lines 70-74 (and Domain.h:175): embed *)
Definition embed (d : domain) (points : list (list R)) : option container :=
  option_map (fun grid => set_embedded_points d grid points) (build d).

(** Lines 175-231: interpolate.  [old] is the content of the output matrix before the call; [nb_cols] the number of
    columns of both matrices (line 192). None is one of the exceptions of lines 179-190. *)
Definition interpolate_at (d : domain) (nb_cols : nat) (values : list (list R)) (bp : barycentric_point_t) : list R :=
  interpolate nb_cols (kind d) (snd bp)
    (map (fun i => nth i values []) (nth (Z.to_nat (fst bp)) (connectivity d) [])).
Definition interpolate_field (d : domain) (c : container) (nb_cols : nat) (values old : list (list R))
    : option (list (list R)) :=
  if negb (Nat.eqb (length values) (length (positions d))) then None
  else if negb (Nat.eqb (length old) (length (barycentric_points c))) then None
  else
    let some_nodes_are_outside := negb (Nat.eqb (length (outside_nodes c)) 0) in
    Some (map2 (fun bp o => if (some_nodes_are_outside && (fst bp <? 0)%Z)%bool then o
                            else interpolate_at d nb_cols values bp) (barycentric_points c) old).
