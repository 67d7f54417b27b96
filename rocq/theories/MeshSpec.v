(** Vocabulary for meshes and domains (C27-C30): what a user of a mesh believes they hold, a list of named tables. *)

From Coq Require Import String List Arith ZArith.
From Verif Require Import MeshModel.
Import ListNotations.
Open Scope nat_scope.

Definition table := list (list nat).

(** Calls made on one mesh. *)
Inductive call :=
| AddNew (name : string) (t : table)        (* mesh.add_domain<Element>(name, table) *)
| AddPointer (name : string) (t : table)    (* mesh.add_domain(new Domain(nullptr, table), name) *)
| RemoveName (name : string)                (* mesh.remove_domain(name) *)
| RemoveIth (i : nat).                      (* mesh.remove(mesh.domain(i)) when i < number_of_domains() *)

Definition named (name : string) (x : string * table) : bool := String.eqb (fst x) name.

Fixpoint remove_first {A : Type} (p : A -> bool) (l : list A) : list A :=
  match l with [] => [] | x :: l => if p x then l else x :: remove_first p l end.

(** Effect expected of each call. *)
Definition expected (s : list (string * table)) (c : call) : list (string * table) :=
  match c with
  | AddNew name t => if existsb (named name) s then s else s ++ [(name, t)]
  | AddPointer name t => s ++ [(name, t)]
  | RemoveName name => remove_first (named name) s
  | RemoveIth i => firstn i s ++ skipn (S i) s
  end.
Definition expected_after (calls : list call) : list (string * table) := fold_left expected calls [].

(** The calls run on the model; None when one of them never returns or is undefined. *)
Definition outcome {A : Type} (r : result A) : option heap :=
  match r with Ok h _ => Some h | Throw h => Some h | _ => None end.
Definition run_call (nb_cols fuel m : nat) (h : heap) (c : call) : option heap :=
  match c with
  | AddNew name t => outcome (add_domain_new h m name nb_cols t)
  | AddPointer name t => let (h, d) := new_domain h Null nb_cols t in outcome (add_domain_ptr h m d name)
  | RemoveName name => outcome (remove_domain h m name fuel)
  | RemoveIth i => match domain_at h m i with Some d => outcome (remove h m d fuel) | None => Some h end
  end.
Fixpoint run (nb_cols fuel m : nat) (h : heap) (calls : list call) : option heap :=
  match calls with
  | [] => Some h
  | c :: calls => match run_call nb_cols fuel m h c with Some h => run nb_cols fuel m h calls | None => None end
  end.

Definition table_of (c : call) : table := match c with AddNew _ t | AddPointer _ t => t | _ => [] end.
Definition rectangular_call (nb_cols : nat) (c : call) : Prop := Forall (fun row => length row = nb_cols) (table_of c).

(** Domain d can be used as the table t of the mesh m. *)
Definition usable (h : heap) (m d : nat) (t : table) : Prop :=
  domain_mesh h d = Some (At m) /\ number_of_elements h d = Some (length t) /\
  forall e, e < length t -> element_indices h d e = Some (nth e t []).

(** No object has an identity that was not handed out yet. *)
Definition heap_ok (h : heap) : Prop :=
  forall i, next h <= i -> meshes h i = None /\ domains h i = None /\ buffers h i = None.

(** All the domains listed by a mesh are alive. *)
Definition domains_alive (h : heap) (m : nat) : Prop :=
  forall i d, domain_at h m i = Some d -> domains h d <> None.

(** Domain d owns a copy of its table. *)
Definition owns_its_table (h : heap) (d : nat) : Prop :=
  exists D b, domains h d = Some D /\ p_buffer D = Some b /\ data (p_elements D) = b.

Definition names (h : heap) (m : nat) : option (list string) := option_map (fun M => map fst (p_domains M)) (meshes h m).
Definition nodes_of (h : heap) (m : nat) : option (list (list Z)) := option_map p_nodes (meshes h m).

(** The heap after a list of calls on a new mesh, and the identity of this mesh. *)
Definition the_mesh (h0 : heap) (nodes : list (list Z)) : nat := snd (new_mesh h0 nodes).
Definition after (nb_cols fuel : nat) (h0 : heap) (nodes : list (list Z)) (calls : list call) : option heap :=
  run nb_cols fuel (the_mesh h0 nodes) (fst (new_mesh h0 nodes)) calls.
