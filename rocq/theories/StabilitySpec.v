(** Vocabulary for the stability of a hyperelastic body (C93). *)

From Coq Require Import Reals List Arith.
From Coquelicot Require Import Coquelicot.
From Coq Require Import List.
From Verif Require Import GridGeoModel ShapeModel LinAlg RectSpec BarycentricModel MappingSpec TensorSpec MaterialModel MaterialSpec SparseModel HyperModel HyperSpec.
Import ListNotations.
Open Scope R_scope.

(** Gradient, with respect to the rest position, of the field with the nodal values v at a local point of an element: the
    matrix G with G J_rest = J_v.  Its symmetric part is the (linearised) strain. *)
Definition displacement_gradient (d : domain) (v : list (list R)) (row : list nat) (xi : list R) : list (list R) :=
  product (jacobian 3 (kind d) (gather v row) xi) (inverse (jacobian 3 (kind d) (nodes_of_element d row) xi)).
Definition strain (G : list (list R)) : list (list R) := of_entries (fun i j => / 2 * (entries G i j + entries G j i)).
Definition strain_free (d : domain) (v : list (list R)) : Prop :=
  forall row g, In row (connectivity d) -> In g (gauss_nodes (kind d)) -> strain (displacement_gradient d v row (fst g)) = of_entries (fun _ _ => 0).

(** Twice the energy of linear elasticity, integrated by quadrature over the body at rest. *)
Definition hooke_energy (m : material) (d : domain) (v : list (list R)) : R :=
  Rsum (map (fun row => Rsum (map (fun g => snd g * Rabs (local_volume d row (fst g)) *
    (let E := strain (displacement_gradient d v row (fst g)) in lambda m * (trace E * trace E) + 2 * mu m * double_dot E E))
    (gauss_nodes (kind d)))) (connectivity d)).

(** The matrix returned by K() when the nodes are at x. *)
Definition stiffness (m : material) (d : domain) (x : list (list R)) : nat -> nat -> R := coeff (K (assemble_stiffness m d x) (length (positions d) * 3)).
(** v^T A v *)
Definition quadratic (n : nat) (A : nat -> nat -> R) (v : list R) : R :=
  Rsum (map (fun i => nth i v 0 * Rsum (map (fun j => A i j * nth j v 0) (seq 0 n))) (seq 0 n)).
(** A v = 0 *)
Definition annihilates (n : nat) (A : nat -> nat -> R) (v : list R) : Prop :=
  forall i, (i < n)%nat -> Rsum (map (fun j => A i j * nth j v 0) (seq 0 n)) = 0.

(** Materials that resist to every strain: mu > 0 and a positive bulk modulus. *)
Definition stable (m : material) : Prop := 0 < mu m /\ 0 < 3 * lambda m + 2 * mu m.

(** Infinitesimal rigid motions: v = t + w ^ X at every node. *)
Definition rigid (X v : list (list R)) : Prop :=
  exists t w, length t = 3%nat /\ length w = 3%nat /\ v = map (fun p => vadd t (vcross w p)) X.

(** Three points that are not on a line. *)
Definition not_aligned (a b c : list R) : Prop := vcross (vminus b a) (vminus c a) <> [0; 0; 0].
(** Two elements hold together: they share three nodes that are not aligned. *)
Definition hold_together (d : domain) (r1 r2 : list nat) : Prop :=
  exists a b c, incl [a; b; c] r1 /\ incl [a; b; c] r2 /\
    not_aligned (nth a (positions d) []) (nth b (positions d) []) (nth c (positions d) []).
Inductive linked (d : domain) : list nat -> list nat -> Prop :=
  | linked_refl : forall r, In r (connectivity d) -> linked d r r
  | linked_step : forall r1 r2 r3, In r1 (connectivity d) -> hold_together d r1 r2 -> linked d r2 r3 -> linked d r1 r3.
(** Meshes in one piece: one goes from any element to any other by elements that hold together, and every node belongs to
    an element. *)
Definition one_piece (d : domain) : Prop :=
  (forall r1 r2, In r1 (connectivity d) -> In r2 (connectivity d) -> linked d r1 r2) /\
  (forall p, (p < length (positions d))%nat -> exists r, In r (connectivity d) /\ In p r).

(** Every element is the image of the reference element by an affine map: straight tetrahedra, parallelepipeds. *)
Definition straight (d : domain) : Prop :=
  forall row, In row (connectivity d) -> exists x0 E, affine_element 3 (kind d) (nodes_of_element d row) x0 E.

(** v is zero at the nodes of a list. *)
Definition held (fixed : list nat) (v : list (list R)) : Prop := forall p, In p fixed -> nth p v [] = [0; 0; 0].

(** The eight integration points of a hexahedron, by the signs of their local coordinates. *)
Definition integration_point (d : domain) (row : list nat) (a b c : bool) : list R :=
  let s (p : bool) := if p then 1 / sqrt 3 else -1 / sqrt 3 in
  world_coordinates 3 (kind d) (nodes_of_element d row) [s a; s b; s c].
(** The quadrilateral A B C D is convex at A, or it is not planar. *)
Definition opens (A B C D : list R) : Prop :=
  forall s t, vminus C A = vadd (vscale s (vminus B A)) (vscale t (vminus D A)) -> 0 < s /\ 0 < t.
(** Hexahedra with an open corner: the box of the integration points has a corner where each of the three faces that meet
    there is convex or is not planar. *)
Definition open_corner (d : domain) (row : list nat) : Prop :=
  exists a b c, let p := integration_point d row in
    opens (p a b c) (p (negb a) b c) (p (negb a) (negb b) c) (p a (negb b) c) /\
    opens (p a b c) (p a (negb b) c) (p a (negb b) (negb c)) (p a b (negb c)) /\
    opens (p a b c) (p (negb a) b c) (p (negb a) b (negb c)) (p a b (negb c)).
(** The shapes for which the kernel is known: straight tetrahedra, and hexahedra with an open corner. *)
Definition sturdy (d : domain) : Prop :=
  (In (kind d) [Tetrahedron_Linear; Tetrahedron_Quadratic] /\ straight d) \/
  (kind d = Hexahedron_Linear /\ forall row, In row (connectivity d) -> open_corner d row).
