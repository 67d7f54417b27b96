(** Vocabulary for the set-up of a barycentric mapping (C99). *)

From Coq Require Import String Ascii List Arith.
From Coq Require Import Reals.
From Coq Require Import List.
From Verif Require Import SetupModel EmbeddingModel.
From Verif Require BarycentricModel.
Import ListNotations.

(** The object o is at the end of the path below the node t: the names of nodes, then the name of the object. *)
Inductive placed_at : tree -> list string -> object -> Prop :=
| Placed_here t o : In o (objects t) -> placed_at t [name o] o
| Placed_below t u path o : In u (children t) -> placed_at u path o -> placed_at t (label u :: path) o.
(** The nodes of a scene; names are unique in each of them. *)
Inductive in_scene (t : tree) : tree -> Prop :=
| In_scene_root : in_scene t t
| In_scene_child u v : in_scene t u -> In v (children u) -> in_scene t v.
Definition unique_names (t : tree) : Prop := forall u, in_scene t u -> NoDup (map name (objects u)) /\ NoDup (map label (children u)).

(** A context: a node, its parent, and so on up to the root of the scene. *)
Inductive context_in (scene : tree) : context -> Prop :=
| Context_root : context_in scene [scene]
| Context_child t u c : context_in scene (u :: c) -> In t (children u) -> context_in scene (t :: u :: c).

(** Names without slash, other than "", "." and "..", and the path they make. *)
Definition plain (n : string) : Prop := n <> ""%string /\ n <> "."%string /\ n <> ".."%string /\ forall k, String.get k n <> Some "/"%char.
Fixpoint join (path : list string) : string :=
  match path with [] => "" | [n] => n | n :: path => n ++ "/" ++ join path end%string.

(** The node holds the topology number id of type e; there is one in the nodes of the list; the one of the first node that has some. *)
Definition holds (t : tree) (e : element_type) (id : nat) : Prop := exists o, In o (objects t) /\ topology o = Some (e, id).
Definition reachable (e : element_type) (c : context) : Prop := exists t id, In t c /\ holds t e id.
Definition nearest (e : element_type) (c : context) (id : nat) : Prop :=
  exists near t far, c = near ++ t :: far /\ holds t e id /\ ~ reachable e near.

(** The mapping has an embedding and uses it. *)
Definition active (m : member) : Prop := exists id d c, domain_of_container m = Some (id, d, c) /\ BarycentricModel.outside_nodes c = [].
(** The rest positions of the mapped object; those that are embedded if it has none. *)
Definition embedded_positions (to : mechanical) : list (list R) := match rest_position to with [] => position to | l => l end.
