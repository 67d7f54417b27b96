(** caribou's spatial hash (HashGridModel.v) with the doubles and the machine integers of the code: /repo/src/Caribou/Topology/HashGrid.h.
    INTEGER_TYPE is [signed long long int] (/repo/src/Caribou/Config/config.h.in:25): an operation whose result does not fit in 64 bits is
    undefined behaviour ([None]), as is the conversion of a double which does not fit.

    Simplifications: dimensions 1 to 3; std::unordered_map compares a key with the keys of its bucket, the model with every stored key
    until it finds an equal one, so that it is undefined whenever some choice of the buckets makes the program undefined. *)

From Coq Require Import ZArith List Bool.
From Verif Require Import GridGeoModel HashGridModel FpModel GridFpModel.
Import ListNotations.
Open Scope Z_scope.

Definition checked (z : Z) : option Z := if (- 2 ^ 63 <=? z) && (z <? 2 ^ 63) then Some z else None.

(** HashGrid.h:138-152 (HashFunction); the result is then converted to std::size_t. *)
Definition machine_hash (c : list Z) : option Z :=
  match all_some (map2 (fun prime x => checked (prime * x)) [73856093; 19349663; 83492791] c) with
  | Some (h :: l) => Some (fold_left Z.lxor l h)
  | Some [] | None => None
  end.
(** HashGrid.h:154-160 (HashEqual): Eigen's norm of an integer vector. *)
Definition machine_equal (a b : list Z) : option bool :=
  match all_some (map2 (fun x y => checked (x - y)) a b) with
  | Some d =>
      match all_some (map (fun x => checked (x * x)) d) with
      | Some s => match checked (fold_right Z.add 0 s) with Some n => Some (Z.sqrt n =? 0) | None => None end
      | None => None
      end
  | None => None
  end.

(** [p_hash_table[key].emplace_back(id)] (HashGrid.h:49, 53, 56) *)
Fixpoint emplace_at (t : table) (key : list Z) (id : Z) : option table :=
  match t with
  | [] => Some [(key, [id])]
  | (k, ids) :: t' =>
      match machine_equal k key with
      | Some true => Some ((k, ids ++ [id]) :: t')
      | Some false => match emplace_at t' key id with Some t'' => Some ((k, ids) :: t'') | None => None end
      | None => None
      end
  end.
Definition machine_emplace (t : table) (key : list Z) (id : Z) : option table :=
  match machine_hash key with Some _ => emplace_at t key id | None => None end.
(** [p_hash_table.find(key)] (HashGrid.h:125): [Some None] if there is no such key. *)
Fixpoint find_at (t : table) (key : list Z) : option (option (list Z)) :=
  match t with
  | [] => Some None
  | (k, ids) :: t' =>
      match machine_equal k key with
      | Some true => Some (Some ids)
      | Some false => find_at t' key
      | None => None
      end
  end.
Definition machine_find (t : table) (key : list Z) : option (option (list Z)) :=
  match machine_hash key with Some _ => find_at t key | None => None end.

(** colwise().minCoeff() and maxCoeff() (HashGrid.h:44-45) *)
Definition fmin (x y : double) : double := if flt y x then y else x.
Definition fmax (x y : double) : double := if flt x y then y else x.
Definition fcolwise (f : double -> double -> double) (nodes : list (list double)) : list double :=
  match nodes with
  | [] => []
  | n :: ns => fold_left (map2 f) ns n
  end.
(** HashGrid.h:44-45 and the casts of 47, 51, 55: floor(x * 1 / cell_size) *)
Definition fcoordinate (cell_size x : double) : option Z := to_int (ffloor (fdiv (fmul x (of_int 1)) cell_size)).

(** HashGrid.h:43-62 (add) *)
Definition madd (cell_size : double) (t : table) (nodes : list (list double)) (id : Z) : option table :=
  match all_some (map (fcoordinate cell_size) (fcolwise fmin nodes)), all_some (map (fcoordinate cell_size) (fcolwise fmax nodes)) with
  | Some lo, Some hi =>
      fold_left (fun t key => match t with Some t => machine_emplace t key id | None => None end) (list_product (map2 zrange lo hi)) (Some t)
  | _, _ => None
  end.
(** A history of additions starting from the constructor (HashGrid.h:31-35). *)
Definition mrun (cell_size : double) (history : list (list (list double) * Z)) : option table :=
  fold_left (fun t op => match t with Some t => madd cell_size t (fst op) (snd op) | None => None end) history (Some []).

(** HashGrid.h:97-104; [q] is the coordinate divided by the cell size *)
Definition findices (q : double) : option (list Z) :=
  let half := dbl 1 (-1) in
  if near_integer q then
    match to_int (ffloor (fsub (fround q) half)), to_int (ffloor (fadd (fround q) half)) with
    | Some i, Some j => Some [i; j]
    | _, _ => None
    end
  else match to_int (ffloor q) with Some i => Some [i] | None => None end.
(** HashGrid.h:70-121; the test of line 82 is that of BaseGrid.h:168-176 ([near_integer] of GridFpModel.v) *)
Definition fcells (cell_size : double) (p : list double) : option (list (list Z)) :=
  let absolute := map (fun x => fdiv x cell_size) p in
  if negb (existsb (fun b => b) (map near_integer absolute)) then
    match all_some (map (fun q => to_int (ffloor q)) absolute) with Some c => Some [c] | None => None end
  else match all_some (map findices absolute) with Some l => Some (list_product l) | None => None end.
(** HashGrid.h:123-133 (get) *)
Definition mget (cell_size : double) (t : table) (p : list double) : option (list Z) :=
  match fcells cell_size p with
  | Some cells =>
      match all_some (map (machine_find t) cells) with
      | Some l => Some (nodup Z.eq_dec (flat_map (fun r => match r with Some ids => ids | None => [] end) l))
      | None => None
      end
  | None => None
  end.
