(** The barycentric mapping: /repo/src/SofaCaribou/Mapping/CaribouBarycentricMapping.inl.
    Simplifications: exact reals; parent and mapped nodes have the same dimension; SOFA's base class call of line 125 and
    the topology search of lines 30-77 are not modelled. *)

From Coq Require Import ZArith Reals List Arith Bool.
From Verif Require Import GridGeoModel HashGridModel ShapeModel LinAlg RectModel BarycentricModel SparseModel.
Import ListNotations.
Open Scope R_scope.

(** Members p_barycentric_container (with its domain) and p_J: its size and the triplets it was built from. *)
Record mapping := { m_domain : domain; m_container : container; J_rows : nat; J_cols : nat; J_entries : list triplet }.

(** Lines 112-121: the entries of mapped point number i. *)
Definition point_entries (d : domain) (p : nat * barycentric_point_t) : list triplet :=
  map2 (fun node_index l => (fst p, node_index, l))
       (nth (Z.to_nat (fst (snd p))) (connectivity d) []) (L (kind d) (snd (snd p))).
Definition mapping_entries (d : domain) (c : container) : list triplet :=
  flat_map (point_entries d) (combine (seq 0 (length (barycentric_points c))) (barycentric_points c)).

(** Lines 88-122; None is the exception thrown by embed on an empty domain. *)
Definition init (d : domain) (mapped_rest_positions : list (list R)) : option mapping :=
  match embed d mapped_rest_positions with
  | None => None
  | Some c =>
      Some (match outside_nodes c with
            | [] => {| m_domain := d; m_container := c; J_rows := length mapped_rest_positions;
                       J_cols := length (positions d); J_entries := mapping_entries d c |}
            | _ => {| m_domain := d; m_container := c; J_rows := 0; J_cols := 0; J_entries := [] |}
            end)
  end.

(** Lines 133, 164, 195, 231 *)
Definition usable (m : mapping) : bool := match outside_nodes (m_container m) with [] => true | _ => false end.

(** Lines 129-157 (apply) and 160-188 (applyJ): [old] is the content of the output; None is an exception. *)
Definition apply (m : mapping) (nb_cols : nat) (values old : list (list R)) : option (list (list R)) :=
  if usable m then interpolate_field (m_domain m) (m_container m) nb_cols values old else Some old.
Definition applyJ (m : mapping) (nb_cols : nat) (velocities old : list (list R)) : option (list (list R)) :=
  if usable m then interpolate_field (m_domain m) (m_container m) nb_cols velocities old else Some old.

(** Lines 191-220: forces += p_J^T * mapped_forces. *)
Definition applyJT (m : mapping) (nb_cols : nat) (mapped_forces forces : list (list R)) : list (list R) :=
  if usable m then
    map (fun j => map (fun c => nth c (nth j forces []) 0 +
                                Rsum (map (fun i => coeff (J_entries m) i j * nth c (nth i mapped_forces []) 0)
                                          (seq 0 (J_rows m)))) (seq 0 nb_cols)) (seq 0 (length forces))
  else forces.

(** sofa::defaulttype::MapMapSparseMatrix: a map from row to a map from column to value.  addCol(column, x) adds x to
    the value of the column, or creates it; writeLine(row) is the line of the row, created if needed. *)
Definition line : Type := list (nat * list R).
Fixpoint addCol (l : line) (col : nat) (x : list R) : line :=
  match l with
  | [] => [(col, x)]
  | (c, y) :: l => if Nat.eqb c col then (c, vadd y x) :: l else (c, y) :: addCol l col x
  end.
Definition constraint_matrix : Type := list (nat * line).
Fixpoint writeLine (H : constraint_matrix) (row : nat) (f : line -> line) : constraint_matrix :=
  match H with
  | [] => [(row, f [])]
  | (r, l) :: H => if Nat.eqb r row then (r, f l) :: H else (r, l) :: writeLine H row f
  end.

(** Lines 260-270 (p_J is column major, CaribouBarycentricMapping.h:80). *)
Definition transfer_entry (m : mapping) (mapped_node_index : nat) (mapped_value : list R) (output_row : line) : line :=
  fold_left (fun output_row node_index =>
    let column := inner_vector (J_entries m) (J_rows m) node_index in
    let end_ := length column in
    let index := fun p => fst (nth p column (0%nat, 0)) in
    let id := searchLowerIndex index 0 end_ mapped_node_index in
    if (Nat.ltb id end_ && Nat.eqb (index id) mapped_node_index)%bool
    then addCol output_row node_index (map (fun x => x * snd (nth id column (0%nat, 0))) mapped_value)
    else output_row) (seq 0 (J_cols m)) output_row.

(** Lines 223-274 *)
Definition applyJT_constraints (m : mapping) (input output : constraint_matrix) : constraint_matrix :=
  if usable m then
    fold_left (fun output row =>
      match snd row with
      | [] => output
      | _ => writeLine output (fst row)
               (fun output_row => fold_left (fun output_row col => transfer_entry m (fst col) (snd col) output_row)
                                            (snd row) output_row)
      end) input output
  else output.
