(** C10: completeness of the spatial hash.  Model: HashGridModel.v. *)

From Coq Require Import ZArith List Reals Lia Lra.
From Verif Require Import GridGeoModel GridGeoSpec HashGridModel HashGridProofs.
Import ListNotations.
Open Scope R_scope.

(** After any history of additions of elements (non-empty lists of D-dimensional nodes), a
    query at [p] returns the identifier of every added element whose bounding box contains
    [p].  Any dimension, any positive cell size, any signs. *)
Theorem C10_hash_complete : forall D h history p nodes id, 0 < h ->
  Forall (fun op => fst op <> [] /\ Forall (fun n => length n = D) (fst op)) history ->
  length p = D ->
  In (nodes, id) history -> in_bounding_box nodes p -> In id (get h (run h history) p).
Proof. exact hash_complete. Qed.
Print Assumptions C10_hash_complete.

(** Conversely, everything returned was added with a bounding box closer to [p] than about one cell. *)
Theorem C10_hash_local : forall D h history p id, 0 < h ->
  Forall (fun op => fst op <> [] /\ Forall (fun n => length n = D) (fst op)) history ->
  length p = D ->
  In id (get h (run h history) p) ->
  exists nodes, In (nodes, id) history /\
    forall k x, nth_error p k = Some x ->
      (exists n y, In n nodes /\ nth_error n k = Some y /\ y < x + (1 + EPSILON) * h) /\
      (exists n y, In n nodes /\ nth_error n k = Some y /\ x - (1 + EPSILON) * h < y).
Proof. exact hash_sound. Qed.
Print Assumptions C10_hash_local.

(** Two segments in the plane, one of them with negative coordinates; the query point is a
    common corner of four hash cells. *)
Example C10_witness :
  let history := [([[-1; 0]; [1; 2]], 7%Z); ([[5; 5]; [6; 6]], 8%Z)] in
  Forall (fun op => fst op <> [] /\ Forall (fun n => length n = 2%nat) (fst op)) history /\
  in_bounding_box [[-1; 0]; [1; 2]] [0; 1] /\
  In 7%Z (get 1 (run 1 history) [0; 1]).
Proof.
  set (history := [([[-1; 0]; [1; 2]], 7%Z); ([[5; 5]; [6; 6]], 8%Z)]). simpl.
  assert (V : Forall (fun op : list (list R) * Z => fst op <> [] /\ Forall (fun n => length n = 2%nat) (fst op)) history).
  { repeat constructor; discriminate. }
  assert (B : in_bounding_box [[-1; 0]; [1; 2]] [0; 1]).
  { intros [|[|[|k]]] x E; simpl in E; try discriminate; injection E; intros; subst x; split.
    - exists [-1; 0], (-1). simpl; intuition lra.
    - exists [1; 2], 1. simpl; intuition lra.
    - exists [-1; 0], 0. simpl; intuition lra.
    - exists [1; 2], 2. simpl; intuition lra. }
  split; [exact V|]. split; [exact B|].
  apply (C10_hash_complete 2 1 history [0; 1] [[-1; 0]; [1; 2]] 7%Z); auto; [lra|left; reflexivity].
Qed.
