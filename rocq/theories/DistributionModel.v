(** The distribution of volume ratios of a fictitious grid: /repo/src/SofaCaribou/Topology/FictitiousGrid.inl:1040-1071
    (cell_volume_ratio_distribution), also a method of the Python class (Python/Topology/FictitiousGrid.cpp:24).
    Simplification: exact reals (the weights of the cells are dyadic fractions, exact in floating point; the rounded ratios are not). *)

From Coq Require Import Reals ZArith List Arith Bool.
From Verif Require Import GridModel GridGeoModel FictModel.
Import ListNotations.
Open Scope R_scope.

(** std::round: halfway cases away from zero. *)
Definition std_round (x : R) : R := if Rlt_dec x 0 then - IZR (Int_part (- x + / 2)) else IZR (Int_part (x + / 2)).

(** Lines 1048-1066: the ratio of a cell.  None: an access outside of an array; Some None: the cell is skipped. *)
Definition cell_ratio (comp : component) (number_of_decimals : nat) (cell_id : nat) : option (option R) :=
  match nth_error (forest comp) cell_id, nth_error (cells_types (surface comp)) cell_id with
  | Some cell, Some type =>
    let step := 10 ^ number_of_decimals in
    let weight := get_cell_weight (fun p => leaf_type comp (cell_id, p)) [] (tree_map snd cell) in
    Some (match type with
          | Outside => Some 0
          | Inside => Some 1
          | Boundary => Some (if Nat.eqb number_of_decimals 0 then weight else std_round (weight * step) / step)
          | Undefined => None
          end)
  | _, _ => None
  end.

(** Line 1068: volume_ratios[ratio].emplace_back(cell_id), the map sorted by its keys. *)
Fixpoint emplace (volume_ratios : list (R * list nat)) (ratio : R) (cell_id : nat) : list (R * list nat) :=
  match volume_ratios with
  | [] => [(ratio, [cell_id])]
  | (r, l) :: others =>
    if Rlt_dec ratio r then (ratio, [cell_id]) :: volume_ratios
    else if Rlt_dec r ratio then (r, l) :: emplace others ratio cell_id
    else (r, l ++ [cell_id]) :: others
  end.

(** Lines 1041-1071. *)
Definition cell_volume_ratio_distribution (g : grid) (comp : component) (number_of_decimals : nat) : option (list (R * list nat)) :=
  fold_left (fun m cell_id =>
    match m, cell_ratio comp number_of_decimals cell_id with
    | Some m, Some (Some ratio) => Some (emplace m ratio cell_id)
    | Some m, Some None => Some m
    | _, _ => None
    end) (seq 0 (Z.to_nat (number_of_cells (subdivisions g)))) (Some []).
