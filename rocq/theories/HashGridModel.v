(** Model of caribou's spatial hash.

    Source: /repo/src/Caribou/Topology/HashGrid.h.

    Simplifications (whole file): exact reals, unbounded integers (the overflow of the hash
    function of lines 138-152 on large coordinates is not modelled).  The
    [std::unordered_map] is an association list searched with the map's own equality
    predicate, i.e. the hash function is only assumed to be a function of the key.  The
    returned [std::set] is a duplicate-free list. *)

From Coq Require Import ZArith List Reals.
From Flocq Require Import Core.Raux Core.Generic_fmt Core.Round_NE.
From Verif Require Import GridGeoModel.
Import ListNotations.
Open Scope R_scope.

(** HashGrid.h:154-160 (HashEqual): Eigen's norm of an integer vector is the truncated square
    root of the sum of the squares. *)
Definition squared_norm (a b : list Z) : Z :=
  fold_right Z.add 0%Z (map2 (fun x y => ((x - y) * (x - y))%Z) a b).
Definition hash_equal (a b : list Z) : bool := (Z.sqrt (squared_norm a b) =? 0)%Z.

(** HashGrid.h:164: the hash table. *)
Definition table : Type := list (list Z * list Z).

(** [p_hash_table[key].emplace_back(id)] (HashGrid.h:49, 53, 56): operator[] inserts an
    empty vector when the key is absent. *)
Fixpoint emplace (t : table) (key : list Z) (id : Z) : table :=
  match t with
  | [] => [(key, [id])]
  | (k, ids) :: t' =>
      if hash_equal k key then (k, ids ++ [id]) :: t' else (k, ids) :: emplace t' key id
  end.

(** [p_hash_table.find(key)] (HashGrid.h:125) *)
Fixpoint find (t : table) (key : list Z) : option (list Z) :=
  match t with
  | [] => None
  | (k, ids) :: t' => if hash_equal k key then Some ids else find t' key
  end.

(** [nodes().colwise().minCoeff()] and [maxCoeff()] (HashGrid.h:44-45); an element is the
    non-empty list of its nodes. *)
Definition colwise (f : R -> R -> R) (nodes : list (list R)) : list R :=
  match nodes with
  | [] => []
  | n :: ns => fold_left (map2 f) ns n
  end.

(** HashGrid.h:44-45 *)
Definition hash_coordinates (cell_size : R) (p : list R) : list Z :=
  map (fun x => Zfloor (x * 1 / cell_size)) p.

(** HashGrid.h:43-62 (add); the loops over i, j, k are nested in this order. *)
Definition add (cell_size : R) (t : table) (nodes : list (list R)) (id : Z) : table :=
  let lo := hash_coordinates cell_size (colwise Rmin nodes) in
  let hi := hash_coordinates cell_size (colwise Rmax nodes) in
  fold_left (fun t key => emplace t key id) (list_product (map2 zrange lo hi)) t.

(** HashGrid.h:82 *)
Definition hash_close (t : R) : bool :=
  let distance := t - IZR (ZnearestA t) in
  if Rlt_dec (distance * distance) (EPSILON * EPSILON) then true else false.

(** HashGrid.h:97-104 *)
Definition hash_indices (t : R) : list Z :=
  if hash_close t
  then [Zfloor (IZR (ZnearestA t) - / 2); Zfloor (IZR (ZnearestA t) + / 2)]
  else [Zfloor t].

(** HashGrid.h:70-121: the cells examined for the point [p] *)
Definition hash_cells (cell_size : R) (p : list R) : list (list Z) :=
  let absolute := map (fun x => x / cell_size) p in
  if negb (existsb (fun b => b) (map hash_close absolute)) then [map Zfloor absolute]
  else list_product (map hash_indices absolute).

(** HashGrid.h:123-133 (get) *)
Definition get (cell_size : R) (t : table) (p : list R) : list Z :=
  nodup Z.eq_dec
    (flat_map (fun key => match find t key with Some ids => ids | None => [] end)
              (hash_cells cell_size p)).

(** A history of additions starting from the constructor (HashGrid.h:31-35). *)
Definition run (cell_size : R) (history : list (list (list R) * Z)) : table :=
  fold_left (fun t op => add cell_size t (fst op) (snd op)) history [].
