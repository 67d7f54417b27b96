(** Vocabulary for the energy stored by a hyperelastic body (C96). *)

From Coq Require Import Reals List Arith.
From Coquelicot Require Import Coquelicot.
From Coq Require Import List.
From Verif Require Import GridGeoModel ShapeModel LinAlg RectSpec BarycentricModel MappingSpec TensorSpec MaterialModel MaterialSpec HyperModel HyperSpec StabilitySpec.
Import ListNotations.
Open Scope R_scope.

(** Deformation gradient at a local point of an element when the nodes are at x: the matrix F with F J_rest = J_x. *)
Definition deformation_gradient (d : domain) (x : list (list R)) (row : list nat) (xi : list R) : list (list R) :=
  product (jacobian 3 (kind d) (gather x row) xi) (inverse (jacobian 3 (kind d) (nodes_of_element d row) xi)).

(** Volume of the body at rest and energy stored at x, integrated by quadrature. *)
Definition rest_volume (d : domain) : R :=
  Rsum (map (fun row => Rsum (map (fun g => snd g * Rabs (local_volume d row (fst g))) (gauss_nodes (kind d)))) (connectivity d)).
Definition stored_energy (m : material) (d : domain) (x : list (list R)) : R :=
  Rsum (map (fun row => Rsum (map (fun g => snd g * Rabs (local_volume d row (fst g)) *
    (let F := deformation_gradient d x row (fst g) in strain_energy_density m (det F) (cauchy_green F)))
    (gauss_nodes (kind d)))) (connectivity d)).

(** No length changes around any integration point: F^T F = I. *)
Definition unstretched (d : domain) (x : list (list R)) : Prop :=
  forall row g, In row (connectivity d) -> In g (gauss_nodes (kind d)) -> cauchy_green (deformation_gradient d x row (fst g)) = Id3.

(** The states in which a material is meant to be used: both Lame coefficients for a Neo-Hookean body that is not inverted,
    and a positive bulk modulus for a Saint Venant-Kirchhoff body. *)
Definition resists (m : material) (d : domain) (x : list (list R)) : Prop :=
  match kind_of m with
  | NeoHookean => 0 < mu m /\ 0 <= lambda m /\ not_inverted d x
  | SaintVenantKirchhoff => stable m
  end.

(** The points X after the motion X -> t + Q X; motions that keep lengths, and among them the rigid motions. *)
Definition placed (t : list R) (Q : list (list R)) (X : list (list R)) : list (list R) := map (fun p => vadd t (matvec Q p)) X.
Definition isometry (Q : list (list R)) : Prop := matrix3 Q /\ cauchy_green Q = Id3.
Definition rigidly_placed (X x : list (list R)) : Prop :=
  exists t Q, length t = 3%nat /\ rotation Q /\ x = placed t Q X.

(** A, B, C and D are in a plane. *)
Definition coplanar (A B C D : list R) : Prop := vdot (vcross (vminus B A) (vminus D A)) (vminus C A) = 0.
(** The quadrilateral A B C D is not folded at A by a right angle or more: C and D are on the same side of the line AB, and C and B on the same side of the line AD. *)
Definition unfolded (A B C D : list R) : Prop :=
  0 < vdot (vcross (vminus B A) (vminus D A)) (vcross (vminus B A) (vminus C A)) /\
  0 < vdot (vcross (vminus D A) (vminus B A)) (vcross (vminus D A) (vminus C A)).
(** Hexahedra such that the box of their integration points has a plane face, or a corner where none of the three faces is folded. *)
Definition firm (d : domain) (row : list nat) : Prop :=
  exists a b c, let p := integration_point d row in
    let face (R : list R -> list R -> list R -> list R -> Prop) :=
      (R (p a b c) (p (negb a) b c) (p (negb a) (negb b) c) (p a (negb b) c),
       R (p a b c) (p a (negb b) c) (p a (negb b) (negb c)) (p a b (negb c)),
       R (p a b c) (p a b (negb c)) (p (negb a) b (negb c)) (p (negb a) b c)) in
    (let '(xy, yz, zx) := face coplanar in xy \/ yz \/ zx) \/ (let '(xy, yz, zx) := face unfolded in xy /\ yz /\ zx).
(** The shapes for which the states without energy are known. *)
Definition plain (d : domain) : Prop :=
  kind d = Tetrahedron_Linear \/ (kind d = Hexahedron_Linear /\ forall row, In row (connectivity d) -> firm d row).

(** diag(a, b, c) *)
Definition diagonal (a b c : R) : list (list R) := [ [a; 0; 0]; [0; b; 0]; [0; 0; c] ].

(** Quadratic boxes with half edges a, b and c, and the motions of their nodes that twist the integration points by th, alternately in one sense and in the other. *)
Definition quadratic_brick (a b c : R) : domain :=
  {| dim := 3; kind := Hexahedron_Quadratic;
     positions := map (fun p => [a * nth 0 p 0; b * nth 1 p 0; c * nth 2 p 0]) (canonical_nodes Hexahedron_Quadratic); connectivity := [ seq 0 20 ] |}.
Definition twisted_brick (a b c th : R) : list (list R) :=
  map (fun p => let u := nth 0 p 0 in let v := nth 1 p 0 in
    [a * cos th * u + b * (3 / 2) * sin th * (u * (v * v - 1 / 3)); b * cos th * v - a * (3 / 2) * sin th * (v * (u * u - 1 / 3)); c * nth 2 p 0])
    (canonical_nodes Hexahedron_Quadratic).

(** A quadratic tetrahedron with straight edges, and another place for its nodes. *)
Definition wedge : domain :=
  {| dim := 3; kind := Tetrahedron_Quadratic;
     positions := map (fun p => [nth 0 p 0; nth 1 p 0 + nth 2 p 0; nth 2 p 0 - nth 1 p 0]) (canonical_nodes Tetrahedron_Quadratic); connectivity := [ seq 0 10 ] |}.
Definition curled_wedge : list (list R) :=
  let lo := 0.1381966011250105 in let s := 0.5854101966249685 - lo in
  map (fun p => let u := nth 0 p 0 - lo in let w := nth 1 p 0 + nth 2 p 0 - 2 * lo in
    [u - u * u / (2 * s) - u * w / s + w * w / (2 * s); w + u * u / (2 * s) - u * w / s - w * w / (2 * s); nth 2 p 0 - nth 1 p 0])
    (canonical_nodes Tetrahedron_Quadratic).
