(** Meshes and domains: /repo/src/Caribou/Topology/Mesh.h and Domain.h.
    Objects live on a heap with identities, because the properties are about pointers: which mesh a domain refers to,
    which buffer its connectivity is read from, and whether these are still alive.
    Simplification: identities are never reused after a destruction. *)

From Coq Require Import String List Arith ZArith.
Import ListNotations.
Open Scope nat_scope.

(** Value of a [const BaseMesh *] (Domain.h:257).  The member has no initialiser: a constructor that does not set it
    leaves it [Indeterminate]. *)
Inductive mesh_ptr := Null | At (m : nat) | Indeterminate.

(** Eigen::Map with run time strides (Domain.h:266): coefficient (i, k) is at offset i * outer + k * inner of the
    buffer [data]. *)
Record map_t := { data : nat; rows : nat; cols : nat; outer : nat; inner : nat }.

(** Domain.h:257-266.  [p_buffer] is the identity of the owned array, None when it is empty. *)
Record domain_t := { p_mesh : mesh_ptr; p_buffer : option nat; p_elements : map_t }.

(** Mesh.h:608-613; node coordinates are integers here, the code only copies them. *)
Record mesh_t := { p_nodes : list (list Z); p_domains : list (string * nat) }.

(** What is allocated: None means never created or destroyed. *)
Record heap := { meshes : nat -> option mesh_t; domains : nat -> option domain_t; buffers : nat -> option (list nat);
                 next : nat }.

Definition upd {A : Type} (f : nat -> A) (i : nat) (v : A) : nat -> A := fun j => if Nat.eqb j i then v else f j.

Definition empty_heap : heap :=
  {| meshes := fun _ => None; domains := fun _ => None; buffers := fun _ => None; next := 0 |}.
Definition set_mesh (h : heap) (m : nat) (v : option mesh_t) : heap :=
  {| meshes := upd (meshes h) m v; domains := domains h; buffers := buffers h; next := next h |}.
Definition set_domain (h : heap) (d : nat) (v : option domain_t) : heap :=
  {| meshes := meshes h; domains := upd (domains h) d v; buffers := buffers h; next := next h |}.
Definition set_buffer (h : heap) (b : nat) (v : option (list nat)) : heap :=
  {| meshes := meshes h; domains := domains h; buffers := upd (buffers h) b v; next := next h |}.
(** A fresh identity. *)
Definition fresh (h : heap) : heap * nat :=
  ({| meshes := meshes h; domains := domains h; buffers := buffers h; next := S (next h) |}, next h).

(** Result of a call: a value, an exception (the heap is the one at the throw), a loop that never ends, or undefined
    behaviour (use of a destroyed object). *)
Inductive result (A : Type) := Ok (h : heap) (a : A) | Throw (h : heap) | Diverges | Undefined.
Arguments Ok {A}. Arguments Throw {A}. Arguments Diverges {A}. Arguments Undefined {A}.

(** * Domains *)

(** Domain.h:184-193: the table is copied to an owned row-major array.  [rows_] are the rows of the table. *)
Definition new_domain (h : heap) (mesh : mesh_ptr) (nb_cols : nat) (rows_ : list (list nat)) : heap * nat :=
  let (h, b) := fresh h in
  let h := set_buffer h b (Some (concat rows_)) in
  let (h, d) := fresh h in
  (set_domain h d (Some {| p_mesh := mesh; p_buffer := Some b;
      p_elements := {| data := b; rows := length rows_; cols := nb_cols; outer := nb_cols; inner := 1 |} |}), d).

(** Domain.h:201-220: external array [b], strides as given (the first two constructors pass (number of columns, 1)). *)
Definition new_domain_external (h : heap) (mesh : mesh_ptr) (b nb_rows nb_cols outer_stride inner_stride : nat) : heap * nat :=
  let (h, d) := fresh h in
  (set_domain h d (Some {| p_mesh := mesh; p_buffer := None;
      p_elements := {| data := b; rows := nb_rows; cols := nb_cols; outer := outer_stride; inner := inner_stride |} |}), d).

(** Domain.h:286-292: element_indices, read from the array the map points to; None when the domain or the array does
    not exist any more, or when the read is out of the array. *)
Definition element_indices (h : heap) (d e : nat) : option (list nat) :=
  match domains h d with
  | None => None
  | Some D =>
      let M := p_elements D in
      match buffers h (data M) with
      | None => None
      | Some buffer =>
          if e <? rows M then
            fold_right (fun k acc => match nth_error buffer (e * outer M + k * inner M), acc with
                                     | Some v, Some l => Some (v :: l) | _, _ => None end)
                       (Some []) (seq 0 (cols M))
          else None
      end
  end.

(** Domain.h:140, 280-283 *)
Definition domain_mesh (h : heap) (d : nat) : option mesh_ptr := option_map p_mesh (domains h d).
Definition number_of_elements (h : heap) (d : nat) : option nat := option_map (fun D => rows (p_elements D)) (domains h d).

(** Domain.h:317-340 with Mesh.h:271-282: the positions of the nodes of an element, read from the mesh the domain
    points to. *)
Definition element_nodes (h : heap) (d e : nat) : option (list (list Z)) :=
  match domain_mesh h d, element_indices h d e with
  | Some (At m), Some indices =>
      match meshes h m with
      | Some M => fold_right (fun i acc => match nth_error (p_nodes M) i, acc with
                                           | Some v, Some l => Some (v :: l) | _, _ => None end) (Some []) indices
      | None => None
      end
  | _, _ => None
  end.

(** Domain.h:99-100 and 113-115: copy constructor and clone.  p_mesh is not initialised; the owned array is copied, but
    the map is copied as is, so it still points to the array of [d]. *)
Definition clone_domain (h : heap) (d : nat) : option (heap * nat) :=
  match domains h d with
  | None => None
  | Some D =>
      let '(h, b') := match p_buffer D with
                      | Some b => let (h', b') := fresh h in (set_buffer h' b' (buffers h b), Some b')
                      | None => (h, None)
                      end in
      let (h, d') := fresh h in
      Some (set_domain h d' (Some {| p_mesh := Indeterminate; p_buffer := b'; p_elements := p_elements D |}), d')
  end.

(** Domain.h:108: destructor; the owned array goes with the domain. *)
Definition delete_domain (h : heap) (d : nat) : heap :=
  match domains h d with
  | Some D => let h := match p_buffer D with Some b => set_buffer h b None | None => h end in set_domain h d None
  | None => h
  end.

(** * Meshes *)

(** Mesh.h:138, 151-189 *)
Definition new_mesh (h : heap) (nodes : list (list Z)) : heap * nat :=
  let (h, m) := fresh h in (set_mesh h m (Some {| p_nodes := nodes; p_domains := [] |}), m).

(** Mesh.h:257-259, 288-295, 313-321 *)
Definition number_of_domains (h : heap) (m : nat) : option nat := option_map (fun M => length (p_domains M)) (meshes h m).
Definition domain_at (h : heap) (m i : nat) : option nat :=
  match meshes h m with Some M => option_map snd (nth_error (p_domains M) i) | None => None end.
Definition domain_named (h : heap) (m : nat) (name : string) : option nat :=
  match meshes h m with
  | Some M => option_map snd (find (fun d => String.eqb (fst d) name) (p_domains M))
  | None => None
  end.

Definition push_domain (h : heap) (m : nat) (M : mesh_t) (name : string) (d : nat) : heap :=
  set_mesh h m (Some {| p_nodes := p_nodes M; p_domains := p_domains M ++ [(name, d)] |}).

(** Mesh.h:414-439, Domain.h:225-238: add_domain(domain, name).  Comparing an indeterminate pointer is undefined. *)
Definition add_domain_ptr (h : heap) (m d : nat) (name : string) : result nat :=
  match meshes h m, domains h d with
  | Some M, Some D =>
      match p_mesh D with
      | Indeterminate => Undefined
      | At m' =>
          if Nat.eqb m' m then
            match find (fun x => Nat.eqb (snd x) d) (p_domains M) with
            | Some x => if String.eqb (fst x) name then Ok h d else Throw h
            | None => Ok (push_domain h m M name d) d
            end
          else Throw h
      | Null =>
          let h := set_domain h d (Some {| p_mesh := At m; p_buffer := p_buffer D; p_elements := p_elements D |}) in
          Ok (push_domain h m M name d) d
      end
  | _, _ => Undefined
  end.

(** Mesh.h:331-346 (and 376-393): add_domain<Element, NodeIndex>(name, indices). *)
Definition add_domain_new (h : heap) (m : nat) (name : string) (nb_cols : nat) (rows_ : list (list nat)) : result nat :=
  match meshes h m with
  | None => Undefined
  | Some M =>
      if existsb (fun d => String.eqb (fst d) name) (p_domains M) then Throw h
      else let (h, d) := new_domain h (At m) nb_cols rows_ in add_domain_ptr h m d name
  end.

(** A while loop: [fuel] tests; None when the loop is still running after them. *)
Fixpoint while {S : Type} (cond : S -> bool) (body : S -> S) (fuel : nat) (s : S) : option S :=
  match fuel with
  | O => None
  | Datatypes.S fuel => if cond s then while cond body fuel (body s) else Some s
  end.

(** Mesh.h:455-463 and 470-478.  The iterator is a position in the list; the loop
      while (it != p_domains.end() and it->first != name);
    has an empty body. *)
Definition loop_condition (matches : string * nat -> bool) (l : list (string * nat)) (it : nat) : bool :=
  match nth_error l it with None => false | Some x => negb (matches x) end.
Definition find_loop (matches : string * nat -> bool) (l : list (string * nat)) (fuel : nat) : option nat :=
  while (loop_condition matches l) (fun it => it) fuel 0.

(** erase(it): the unique_ptr destroys the domain. *)
Definition erase (h : heap) (m : nat) (M : mesh_t) (it : nat) : heap :=
  let h := match nth_error (p_domains M) it with Some (_, d) => delete_domain h d | None => h end in
  set_mesh h m (Some {| p_nodes := p_nodes M; p_domains := firstn it (p_domains M) ++ skipn (S it) (p_domains M) |}).

Definition remove_matching (h : heap) (m : nat) (matches : string * nat -> bool) (fuel : nat) : result bool :=
  match meshes h m with
  | None => Undefined
  | Some M =>
      match find_loop matches (p_domains M) fuel with
      | None => Diverges
      | Some it => if it <? length (p_domains M) then Ok (erase h m M it) true else Ok h false
      end
  end.
Definition remove_domain (h : heap) (m : nat) (name : string) (fuel : nat) : result bool :=
  remove_matching h m (fun x => String.eqb (fst x) name) fuel.
Definition remove (h : heap) (m d : nat) (fuel : nat) : result bool :=
  remove_matching h m (fun x => Nat.eqb (snd x) d) fuel.

(** Mesh.h:220-230: copy constructor. *)
Fixpoint clone_domains (h : heap) (l : list (string * nat)) : option (heap * list (string * nat)) :=
  match l with
  | [] => Some (h, [])
  | (name, d) :: l =>
      match clone_domain h d with
      | None => None
      | Some (h, d') =>
          match clone_domains h l with
          | None => None
          | Some (h, l') => Some (h, (name, d') :: l')
          end
      end
  end.
Definition copy_mesh (h : heap) (m : nat) : result nat :=
  match meshes h m with
  | None => Undefined
  | Some M =>
      let (h, m') := fresh h in
      match clone_domains h (p_domains M) with
      | None => Undefined
      | Some (h, l) => Ok (set_mesh h m' (Some {| p_nodes := p_nodes M; p_domains := l |})) m'
      end
  end.

(** Mesh.h:594-601 *)
Definition swap_mesh (h : heap) (m m' : nat) : result unit :=
  match meshes h m, meshes h m' with
  | Some M, Some M' => Ok (set_mesh (set_mesh h m (Some M')) m' (Some M)) tt
  | _, _ => Undefined
  end.
(** Mesh.h:233-236: move constructor. *)
Definition move_mesh (h : heap) (m : nat) : result nat :=
  let (h, m') := new_mesh h [] in
  match swap_mesh h m' m with
  | Ok h _ => Ok h m'
  | _ => Undefined
  end.

(** Mesh.h:143: destructor; the domains go with the mesh. *)
Definition destroy_mesh (h : heap) (m : nat) : heap :=
  match meshes h m with
  | Some M => set_mesh (fold_left (fun h x => delete_domain h (snd x)) (p_domains M) h) m None
  | None => h
  end.

(** Mesh.h:239-243: assignment from an lvalue: the parameter is a copy, it is swapped and destroyed. *)
Definition assign_mesh (h : heap) (m source : nat) : result unit :=
  match copy_mesh h source with
  | Ok h other => match swap_mesh h m other with
                  | Ok h _ => Ok (destroy_mesh h other) tt
                  | _ => Undefined
                  end
  | _ => Undefined
  end.
(** ... from an rvalue: the parameter is move constructed. *)
Definition move_assign_mesh (h : heap) (m source : nat) : result unit :=
  match move_mesh h source with
  | Ok h other => match swap_mesh h m other with
                  | Ok h _ => Ok (destroy_mesh h other) tt
                  | _ => Undefined
                  end
  | _ => Undefined
  end.
