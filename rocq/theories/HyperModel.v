(** The hyperelastic force field: /repo/src/SofaCaribou/Forcefield/HyperelasticForcefield.inl and .h, instantiated on
    linear and quadratic tetrahedra and hexahedra (Dimension = 3).
    Simplifications: exact reals; the rest positions of the mechanical state are the positions of the nodes of the
    domain; the quadrature nodes are those computed by initialize_elements, so that the size test of lines 108 and 280
    passes. *)

From Coq Require Import Reals List Arith Bool.
From Verif Require Import GridGeoModel ShapeModel LinAlg RectModel BarycentricModel TensorModel MaterialModel SparseModel TractionModel.
Import ListNotations.
Open Scope R_scope.

(** HyperelasticForcefield.h:55-60 *)
Record gauss_node := { weight : R; jacobian_determinant : R; dN_dx : list (list R) }.

(** Lines 543-569; the columns of Jinv^T * dL^T are the rows of dN_dx. *)
Definition get_gauss_nodes (d : domain) (nodes : list (list R)) : list gauss_node :=
  map (fun g =>
    let J := jacobian 3 (kind d) nodes (fst g) in
    let Jinv := inverse J in
    {| weight := snd g; jacobian_determinant := Rabs (det J);
       dN_dx := map (matvec (transpose 3 Jinv)) (dL (kind d) (fst g)) |}) (gauss_nodes (kind d)).

(** X.row(node_indices[i]) for each node of an element: lines 122-126, 439-443. *)
Definition gather (x : list (list R)) (node_indices : list nat) : list (list R) := map (fun i => nth i x []) node_indices.

(** Lines 144 and 459: current_nodes_position.transpose() * dN_dx *)
Definition deformation (nodes dN : list (list R)) : list (list R) := matmul 3 (transpose 3 nodes) dN.
(** Lines 148, 330 and 463: F.transpose() * F *)
Definition right_cauchy_green (F : list (list R)) : list (list R) := matmul 3 (transpose 3 F) F.

(** Lines 132-161: nodal_forces of one element. *)
Definition gauss_forces (m : material) (nodes : list (list R)) (g : gauss_node) : list (list R) :=
  let F := deformation nodes (dN_dx g) in
  let J := det F in
  let C := right_cauchy_green F in
  let S := PK2_stress m J C in
  map (fun dx => matvec (matmul 3 (mscale (jacobian_determinant g * weight g) F) S) dx) (dN_dx g).
Definition element_forces (m : material) (nodes : list (list R)) (gs : list gauss_node) : list (list R) :=
  fold_left (fun forces g => map2 vadd forces (gauss_forces m nodes g)) gs (repeat (repeat 0 3) (length nodes)).

(** Lines 116-168: what is added to the vector of forces (the opposite of nodal_forces(i), line 165). *)
Definition force_contributions (m : material) (d : domain) (x : list (list R)) : list (nat * list R) :=
  flat_map (fun node_indices =>
    map2 (fun node f => (node, map Ropp f)) node_indices
      (element_forces m (gather x node_indices) (get_gauss_nodes d (nodes_of_element d node_indices))))
    (connectivity d).
(** Lines 97-168, after before_update; None is a write out of the vector of forces. *)
Definition addForce (m : material) (d : domain) (x f : list (list R)) : option (list (list R)) :=
  if negb (Nat.eqb (length x) (length f)) then Some f
  else if (Nat.eqb (length x) 0 || Nat.eqb (length (connectivity d)) 0)%bool then Some f
  else add_all f (force_contributions m d x).

(** /repo/src/Caribou/Mechanics/Elasticity/Strain.h:45-56 *)
Definition outer (u dn : list R) : list (list R) := map (fun a => map (fun b => a * b) dn) u.
Definition strain_F (dN U : list (list R)) : list (list R) :=
  let terms := map2 outer U dN in
  madd (fold_left madd (tl terms) (hd [] terms)) Id3.

(** Lines 303-335 *)
Definition gauss_energy (m : material) (U : list (list R)) (g : gauss_node) : R :=
  let F := strain_F (dN_dx g) U in
  let J := det F in
  let C := right_cauchy_green F in
  jacobian_determinant g * weight g * strain_energy_density m J C.
Definition element_energy (m : material) (d : domain) (x : list (list R)) (node_indices : list nat) : R :=
  let U := map (fun i => vminus (nth i x []) (nth i (positions d) [])) node_indices in
  Rsum (map (gauss_energy m U) (get_gauss_nodes d (nodes_of_element d node_indices))).
(** Lines 253-340.  The material is used as it is: before_update is not called. *)
Definition getPotentialEnergy (m : material) (d : domain) (x : list (list R)) : R :=
  if negb (Nat.eqb (length x) (length (positions d))) then 0
  else Rsum (map (element_energy m d x) (connectivity d)).

(** Lines 476-483 and 497-504 *)
Definition B (F : list (list R)) (dx : list R) : list (list R) :=
  let d0 := nth 0 dx 0 in let d1 := nth 1 dx 0 in let d2 := nth 2 dx 0 in
  [ [ e F 0 0 * d0; e F 1 0 * d0; e F 2 0 * d0 ];
    [ e F 0 1 * d1; e F 1 1 * d1; e F 2 1 * d1 ];
    [ e F 0 2 * d2; e F 1 2 * d2; e F 2 2 * d2 ];
    [ e F 0 0 * d1 + e F 0 1 * d0; e F 1 0 * d1 + e F 1 1 * d0; e F 2 0 * d1 + e F 2 1 * d0 ];
    [ e F 0 1 * d2 + e F 0 2 * d1; e F 1 1 * d2 + e F 1 2 * d1; e F 2 1 * d2 + e F 2 2 * d1 ];
    [ e F 0 0 * d2 + e F 0 2 * d0; e F 1 0 * d2 + e F 1 2 * d0; e F 2 0 * d2 + e F 2 2 * d0 ] ].

(** Lines 486 and 507: Kii and Kij at one Gauss node. *)
Definition gauss_block (m : material) (nodes : list (list R)) (i j : nat) (g : gauss_node) : list (list R) :=
  let F := deformation nodes (dN_dx g) in
  let J := det F in
  let C := right_cauchy_green F in
  let S := PK2_stress m J C in
  let D := PK2_stress_jacobian m J C in
  let dxi := nth i (dN_dx g) [] in
  let dxj := nth j (dN_dx g) [] in
  mscale (weight g) (mscale (jacobian_determinant g)
    (madd (mscale (vdot dxi (matvec S dxj)) Id3) (matmul 3 (matmul 6 (transpose 3 (B F dxi)) D) (B F dxj)))).
(** Lines 445-512: the block (i, j) of Ke.  Simplification: only blocks with i <= j are used below, and only the upper
    triangular part when i = j, exactly the entries that lines 487-489 and 508-509 accumulate. *)
Definition element_block (m : material) (nodes : list (list R)) (gs : list gauss_node) (i j : nat) : list (list R) :=
  fold_left (fun K g => madd K (gauss_block m nodes i j g)) gs (repeat (repeat 0 3) 3).

(** Lines 515-533 *)
Definition element_triplets (m : material) (d : domain) (x : list (list R)) (node_indices : list nat) : list triplet :=
  let gs := get_gauss_nodes d (nodes_of_element d node_indices) in
  let Ke := element_block m (gather x node_indices) gs in
  let n := length node_indices in
  flat_map (fun i =>
    let x := (nth i node_indices 0 * 3)%nat in
    flat_map (fun m => map (fun n => ((x + m)%nat, (x + n)%nat, e (Ke i i) m n)) (seq m (3 - m))) (seq 0 3) ++
    flat_map (fun j =>
      let y := (nth j node_indices 0 * 3)%nat in
      flat_map (fun m => map (fun n => ((x + m)%nat, (y + n)%nat, e (Ke i j) m n)) (seq 0 3)) (seq 0 3))
      (seq (i + 1) (n - (i + 1))))
    (seq 0 n).
(** Lines 433-534, after before_update.  [order] is the order in which the elements enter the critical section of lines
    514-533; without multithreading it is 0, 1, 2, ... *)
Definition assemble_in_order (m : material) (d : domain) (x : list (list R)) (order : list nat) : list triplet :=
  flat_map (fun id => element_triplets m d x (nth id (connectivity d) [])) order.
Definition assemble_stiffness (m : material) (d : domain) (x : list (list R)) : list triplet :=
  assemble_in_order m d x (seq 0 (length (connectivity d))).

(** for k < outerSize, for InnerIterator it(p_K, k): the stored coefficients of p_K (lines 198-199 and 235-236) after
    setFromTriplets (line 535), where n is the number of rows and columns. *)
Definition stored_coefficients (ts : list triplet) (n : nat) : list triplet :=
  flat_map (fun j => map (fun iv => (fst iv, j, snd iv)) (inner_vector ts n j)) (seq 0 n).

(** DF[i] += v; None is a write out of the vector. *)
Fixpoint add_scalar (f : list R) (i : nat) (v : R) : option (list R) :=
  match f, i with
  | [], _ => None
  | y :: f, O => Some (y + v :: f)
  | y :: f, S i => option_map (cons y) (add_scalar f i v)
  end.
Definition add_scalars (f : list R) (l : list (nat * R)) : option (list R) :=
  fold_left (fun f p => match f with Some f => add_scalar f (fst p) (snd p) | None => None end) l (Some f).

(** Lines 193-210; DX and DF are the flat vectors of lines 193-194. *)
Definition addDForce (ts : list triplet) (n : nat) (kFactor : R) (DX DF : list R) : option (list R) :=
  add_scalars DF (flat_map (fun it =>
    let i := row_of it in let j := col_of it in
    let v := -1 * value_of it * kFactor in
    if negb (Nat.eqb i j) then [ (i, v * nth j DX 0); (j, v * nth i DX 0) ] else [ (i, v * nth i DX 0) ])
    (stored_coefficients ts n)).

(** Lines 235-247: the calls matrix->add(row, column, value). *)
Definition addKToMatrix (ts : list triplet) (n : nat) (kFact : R) (offset : nat) : list triplet :=
  flat_map (fun it =>
    let i := row_of it in let j := col_of it in
    let v := -1 * value_of it * kFact in
    if negb (Nat.eqb i j) then [ ((offset + i)%nat, (offset + j)%nat, v); ((offset + j)%nat, (offset + i)%nat, v) ]
    else [ ((offset + i)%nat, (offset + i)%nat, v) ])
    (stored_coefficients ts n).

(** HyperelasticForcefield.h:115-148: the triplets of the matrix returned by K(). *)
Definition K (ts : list triplet) (n : nat) : list triplet :=
  flat_map (fun it =>
    let i := row_of it in let j := col_of it in
    let v := value_of it in
    if negb (Nat.eqb i j) then [ (i, j, v); (j, i, v) ] else [ (i, i, v) ])
    (stored_coefficients ts n).

(** ** The component: calls made by the simulation and by the user *)

(** The mechanical state (its position vector), the Data of the material, its members computed by before_update, and
    the private members of the force field. *)
Record component := { current_x : list (list R); material_law : law; young_modulus : R; poisson_ratio : R;
                      parameters : material; p_K : list triplet; K_is_up_to_date : bool }.

Definition update_material (c : component) : component :=
  {| current_x := current_x c; material_law := material_law c; young_modulus := young_modulus c;
     poisson_ratio := poisson_ratio c;
     parameters := before_update (material_law c) (young_modulus c) (poisson_ratio c);
     p_K := p_K c; K_is_up_to_date := K_is_up_to_date c |}.
Definition set_K (c : component) (ts : list triplet) (b : bool) : component :=
  {| current_x := current_x c; material_law := material_law c; young_modulus := young_modulus c;
     poisson_ratio := poisson_ratio c; parameters := parameters c; p_K := ts; K_is_up_to_date := b |}.
(** Lines 390-394 and 409-540 *)
Definition reassemble (d : domain) (c : component) : component :=
  let c := update_material c in set_K c (assemble_stiffness (parameters c) d (current_x c)) true.

Inductive call :=
  | SetParameters (E nu : R)          (* the user changes the Data of the material *)
  | SetPositions (x : list (list R))  (* the solver moves the nodes *)
  | AddForce (f : list (list R))
  | AddDForce (kFactor : R) (DX DF : list R)
  | AddKToMatrix (kFact : R) (offset : nat)
  | PotentialEnergy.
Inductive answer := Nothing | Forces (f : option (list (list R))) | DForces (f : option (list R)) | Added (ts : list triplet) | Energy (e : R).

Definition dofs (c : component) : nat := (length (current_x c) * 3)%nat.

(** Lines 74-250: each call, with what it returns or writes.  Simplification: the number of rows of p_K is taken from the
    current positions (their number does not change during a simulation). *)
Definition step (d : domain) (c : component) (a : call) : component * answer :=
  match a with
  | SetParameters E nu =>
      ({| current_x := current_x c; material_law := material_law c; young_modulus := E; poisson_ratio := nu;
          parameters := parameters c; p_K := p_K c; K_is_up_to_date := K_is_up_to_date c |}, Nothing)
  | SetPositions x =>
      ({| current_x := x; material_law := material_law c; young_modulus := young_modulus c; poisson_ratio := poisson_ratio c;
          parameters := parameters c; p_K := p_K c; K_is_up_to_date := K_is_up_to_date c |}, Nothing)
  | AddForce f =>
      let c := update_material c in
      let early := (negb (Nat.eqb (length (current_x c)) (length f)) || Nat.eqb (length (current_x c)) 0 ||
                    Nat.eqb (length (connectivity d)) 0)%bool in
      (set_K c (p_K c) (if early then K_is_up_to_date c else false), Forces (addForce (parameters c) d (current_x c) f))
  | AddDForce kFactor DX DF =>
      let c := if K_is_up_to_date c then c else reassemble d c in
      (c, DForces (addDForce (p_K c) (dofs c) kFactor DX DF))
  | AddKToMatrix kFact offset =>
      let c := if K_is_up_to_date c then c else reassemble d c in
      (c, Added (addKToMatrix (p_K c) (dofs c) kFact offset))
  | PotentialEnergy => (c, Energy (getPotentialEnergy (parameters c) d (current_x c)))
  end.
