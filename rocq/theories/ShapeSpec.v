(** Vocabulary in which the properties of the elements (C11-C18, C22, C25, C26) are stated:
    reference domains, partial derivatives, polynomial fields, integrals.  Independent of the
    shape functions. *)

From Coq Require Import Reals.
From Coquelicot Require Import Coquelicot.
From Coq Require Import List.
From Verif Require Import ShapeModel.
Import ListNotations.
Open Scope R_scope.

(** The point [xi] with its k-th coordinate replaced by [t]. *)
Fixpoint set_coord (xi : list R) (k : nat) (t : R) : list R :=
  match xi, k with
  | [], _ => []
  | _ :: l, O => t :: l
  | x :: l, S k => x :: set_coord l k t
  end.

(** [d] is the partial derivative of [f] at [xi] in direction [k]. *)
Definition partial_derivative (f : list R -> R) (k : nat) (xi : list R) (d : R) : Prop :=
  is_derive (fun t => f (set_coord xi k t)) (nth k xi 0) d.

(** Scalar product. *)
Fixpoint dot (a b : list R) : R :=
  match a, b with
  | x :: a, y :: b => x * y + dot a b
  | _, _ => 0
  end.

(** The affine field x |-> c + b.x and the quadratic field x |-> c + b.x + x.Ax (A a list of rows). *)
Definition affine (c : R) (b x : list R) : R := c + dot b x.
Definition quadratic (c : R) (b : list R) (A : list (list R)) (x : list R) : R :=
  c + dot b x + dot x (map (fun row => dot row x) A).

(** A square matrix of size n given by its rows. *)
Definition square (n : nat) (A : list (list R)) : Prop :=
  length A = n /\ Forall (fun row => length row = n) A.

(** A table of [n] points of dimension [d]. *)
Definition table (n d : nat) (nodes : list (list R)) : Prop :=
  length nodes = n /\ Forall (fun row => length row = d) nodes.

(** Families of elements. *)
Definition simplex (e : element) : bool :=
  match e with
  | Triangle_Linear | Triangle_Quadratic | Tetrahedron_Linear | Tetrahedron_Quadratic => true
  | _ => false
  end.
Definition is_quadratic (e : element) : bool :=
  match e with
  | Segment_Quadratic | Triangle_Quadratic | Quad_Quadratic | RectangularQuad_Quadratic
  | Tetrahedron_Quadratic | Hexahedron_Quadratic | RectangularHexahedron_Quadratic => true
  | _ => false
  end.

(** The element type of an edge. *)
Definition edge_type (e : element) : element := if is_quadratic e then Segment_Quadratic else Segment_Linear.

(** The reference domain of an element enlarged by [eps]: the simplex { x_k >= 0, sum x_k <= 1 } or the
    box [-1,1]^d, every bounding plane being moved outwards by [eps]. *)
Definition in_reference (e : element) (eps : R) (xi : list R) : Prop :=
  length xi = CanonicalDimension e /\
  if simplex e then Forall (fun x => - eps <= x) xi /\ Rsum xi <= 1 + eps
  else Forall (fun x => - 1 - eps <= x <= 1 + eps) xi.

(** Its interior. *)
Definition in_open_reference (e : element) (eps : R) (xi : list R) : Prop :=
  length xi = CanonicalDimension e /\
  if simplex e then Forall (fun x => - eps < x) xi /\ Rsum xi < 1 + eps
  else Forall (fun x => - 1 - eps < x < 1 + eps) xi.

(** Integral of [f] over the reference domain, by iterated (Riemann) integrals. *)
Definition reference_integral (e : element) (f : list R -> R) : R :=
  match e with
  | Segment_Linear | Segment_Quadratic => RInt (fun u => f [u]) (-1) 1
  | Triangle_Linear | Triangle_Quadratic =>
      RInt (fun v => RInt (fun u => f [u; v]) 0 (1 - v)) 0 1
  | Quad_Linear | Quad_Quadratic | RectangularQuad_Linear | RectangularQuad_Quadratic =>
      RInt (fun v => RInt (fun u => f [u; v]) (-1) 1) (-1) 1
  | Tetrahedron_Linear | Tetrahedron_Quadratic =>
      RInt (fun w => RInt (fun v => RInt (fun u => f [u; v; w]) 0 (1 - v - w)) 0 (1 - w)) 0 1
  | _ => RInt (fun w => RInt (fun v => RInt (fun u => f [u; v; w]) (-1) 1) (-1) 1) (-1) 1
  end.

(** Measure of the reference domain. *)
Definition reference_measure (e : element) : R :=
  match e with
  | Segment_Linear | Segment_Quadratic => 2
  | Triangle_Linear | Triangle_Quadratic => 1 / 2
  | Quad_Linear | Quad_Quadratic | RectangularQuad_Linear | RectangularQuad_Quadratic => 4
  | Tetrahedron_Linear | Tetrahedron_Quadratic => 1 / 6
  | _ => 8
  end.

(** Polynomials of degree at most three in each variable separately, with arbitrary coefficients:
    sum_i a_i x^i, sum_i (sum_j a_ij y^j) x^i, sum_i (sum_j (sum_k a_ijk z^k) y^j) x^i, indices from 0 to 3. *)
Definition cubic1 (a : nat -> R) (x : R) : R := sum_n (fun i => a i * x ^ i) 3.
Definition cubic2 (a : nat -> nat -> R) (x y : R) : R := cubic1 (fun i => cubic1 (a i) y) x.
Definition cubic3 (a : nat -> nat -> nat -> R) (x y z : R) : R := cubic1 (fun i => cubic2 (a i) y z) x.

(** The same as fields on points of the reference domain. *)
Definition cubic1_field (a : nat -> R) (x : list R) : R := cubic1 a (nth 0 x 0).
Definition cubic2_field (a : nat -> nat -> R) (x : list R) : R := cubic2 a (nth 0 x 0) (nth 1 x 0).
Definition cubic3_field (a : nat -> nat -> nat -> R) (x : list R) : R :=
  cubic3 a (nth 0 x 0) (nth 1 x 0) (nth 2 x 0).

(** The bounding planes of the reference domain of the surface and volume elements, as functions that vanish
    on the plane and are positive inside, in the order in which the code lists the faces. *)
Definition sides (e : element) : list (list R -> R) :=
  let u x := nth 0 x 0 in let v x := nth 1 x 0 in let w x := nth 2 x 0 in
  match e with
  | Segment_Linear | Segment_Quadratic => []
  | Triangle_Linear | Triangle_Quadratic =>
      [ (fun x => v x); (fun x => 1 - u x - v x); (fun x => u x) ]
  | Quad_Linear | Quad_Quadratic | RectangularQuad_Linear | RectangularQuad_Quadratic =>
      [ (fun x => 1 + v x); (fun x => 1 - u x); (fun x => 1 - v x); (fun x => 1 + u x) ]
  | Tetrahedron_Linear | Tetrahedron_Quadratic =>
      [ (fun x => w x); (fun x => v x); (fun x => u x); (fun x => 1 - u x - v x - w x) ]
  | _ =>
      [ (fun x => 1 + w x); (fun x => 1 + u x); (fun x => 1 - u x);
        (fun x => 1 + v x); (fun x => 1 - v x); (fun x => 1 - w x) ]
  end.

Definition vsub (a b : list R) : list R := map (fun p => fst p - snd p) (combine a b).
Definition cross (a b : list R) : list R :=
  let a0 := nth 0 a 0 in let a1 := nth 1 a 0 in let a2 := nth 2 a 0 in
  let b0 := nth 0 b 0 in let b1 := nth 1 b 0 in let b2 := nth 2 b 0 in
  [ a1 * b2 - a2 * b1; a2 * b0 - a0 * b2; a0 * b1 - a1 * b0 ].

(** Outward (not normalised) normal of an oriented face given by its first nodes: in the plane the right-hand
    side of the direction of travel (the boundary is travelled counter-clockwise), in space the right-hand
    rule. *)
Definition face_normal (points : list (list R)) : list R :=
  match points with
  | p0 :: p1 :: rest =>
      match p0 with
      | [_; _] => [ nth 1 (vsub p1 p0) 0; - nth 0 (vsub p1 p0) 0 ]
      | _ => cross (vsub p1 p0) (vsub (nth 0 rest []) p0)
      end
  | _ => []
  end.

(** The nodes of a face / edge, and the ones that two faces share. *)
Definition pick (nodes : list (list R)) (face : list nat) : list (list R) :=
  map (fun i => nth i nodes []) face.
Definition shared (f g : list nat) : list nat := filter (fun i => if in_dec Nat.eq_dec i g then true else false) f.
