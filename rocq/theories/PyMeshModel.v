(** The Python module seen by a script: /repo/src/Caribou/Python/Topology/Mesh.cpp, Domain.h and BarycentricContainer.h,
    over the heap of MeshModel.v.
    pybind11 and the interpreter are modelled by what the bindings ask of them: a mesh belongs to its Python object
    ([py::class_<M, BaseMesh>], default holder, Mesh.cpp:18, 47-49) and is destroyed when no variable refers to it any
    more; the Python object of a domain does not own the domain ([std::unique_ptr<D, py::nodelete>], Domain.h:15-16,
    [return_value_policy::reference], Domain.h:27, 34, 39, 54, 69) and no call has a [keep_alive] clause; a barycentric
    container belongs to its Python object and has a plain pointer to the domain (Topology/BarycentricContainer.h:286).
    [self] given back to Python (Mesh.cpp:38-44) and the result of [Domain::mesh] are the existing Python object.
    Simplifications: the only references are variables (no containers, no reference cycles); the name of a domain added
    without a name is any string; the positions given to [embed] are replaced by the elements found for them. *)

From Coq Require Import String List Arith ZArith Bool.
From Verif Require Import MeshModel.
Import ListNotations.
Open Scope nat_scope.

(** ** Variables *)
Definition lookup {A : Type} (v : nat) (e : list (nat * A)) : option A := option_map snd (find (fun x => fst x =? v) e).
Definition unbind {A : Type} (v : nat) (e : list (nat * A)) : list (nat * A) := filter (fun x => negb (fst x =? v)) e.
Definition bind {A : Type} (v : nat) (x : A) (e : list (nat * A)) : list (nat * A) := (v, x) :: unbind v e.

(** What a variable refers to: None, a mesh, a domain, or a container with its pointer to a domain and the elements of
    its points. *)
Inductive value := PyNone | PyMesh (m : nat) | PyDomain (d : nat) | PyContainer (d : nat) (elements : list nat).
Definition environment := list (nat * value).

Definition refers_to (m : nat) (x : nat * value) : bool := match snd x with PyMesh m' => m' =? m | _ => false end.
Definition mesh_held (m : nat) (e : environment) : bool := existsb (refers_to m) e.

(** A reference goes away: the mesh is destroyed when it was the last one. *)
Definition release (old : option value) (h : heap) (e : environment) : heap :=
  match old with
  | Some (PyMesh m) => if mesh_held m e then h else destroy_mesh h m
  | _ => h
  end.
(** [v = value] and [del v] *)
Definition assign (v : nat) (x : value) (h : heap) (e : environment) : heap * environment :=
  let e' := bind v x e in (release (lookup v e) h e', e').
Definition delete (v : nat) (h : heap) (e : environment) : heap * environment :=
  let e' := unbind v e in (release (lookup v e) h e', e').

(** ** Statements of a script *)
Inductive statement :=
| NewMesh (v : nat) (nodes : list (list Z))                                         (* v = Mesh(nodes) *)
| AddDomain (v w : nat) (name : string) (element_nodes nb_cols : nat) (t : list (list nat)) (* v = w.add_domain(name, Element, t) *)
| DomainAt (v w i : nat)                                                            (* v = w.domain(i) *)
| DomainNamed (v w : nat) (name : string)                                           (* v = w.domain(name) *)
| MeshOf (v w : nat)                                                                (* v = w.mesh() *)
| Embed (v w : nat) (elements : list nat)                                           (* v = w.embed(points) *)
| Alias (v w : nat)                                                                 (* v = w *)
| Del (v : nat)                                                                     (* del v *)
| NumberOfDomains (w : nat)                                                         (* w.number_of_domains() *)
| NumberOfElements (w : nat)                                                        (* w.number_of_elements() *)
| ElementIndices (w e : nat)                                                        (* w.element_indices(e) *)
| ElementOf (w e : nat)                                                             (* w.element(e) *)
| Interpolate (w : nat).                                                            (* w.interpolate(values) *)

(** What the statement shows.  [Rows]: the node indices at which [interpolate] reads the values. *)
Inductive answer := Nothing | Raises | Number (n : nat) | Indices (l : list nat) | Nodes (l : list (list Z)) | Rows (l : list (list nat)).

Definition option_all {A B : Type} (f : A -> option B) (l : list A) : option (list B) :=
  fold_right (fun x acc => match f x, acc with Some y, Some l => Some (y :: l) | _, _ => None end) (Some []) l.

(** One statement; None: undefined behaviour (use of a destroyed object, access out of range). *)
Definition step (h : heap) (e : environment) (s : statement) : option (heap * environment * answer) :=
  let raise := Some (h, e, Raises) in
  let store v x h := let (h, e) := assign v x h e in Some (h, e, Nothing) in
  match s with
  (* Mesh.cpp:47-49 *)
  | NewMesh v nodes => let (h, m) := new_mesh h nodes in store v (PyMesh m) h
  (* Mesh.cpp:37-45; Domain.h:30-69: the number of columns is checked, the domain is created without a mesh and given
     to BaseMesh::add_domain *)
  | AddDomain v w name element_nodes nb_cols t =>
      match lookup w e with
      | Some (PyMesh m) =>
          if nb_cols =? element_nodes then
            let (h, d) := new_domain h Null nb_cols t in
            match add_domain_ptr h m d name with
            | Ok h d => store v (PyDomain d) h
            | Throw h => Some (h, e, Raises)
            | _ => None
            end
          else raise
      | _ => raise
      end
  (* Mesh.cpp:24-25, Mesh.h:303-321 *)
  | DomainAt v w i =>
      match lookup w e with
      | Some (PyMesh m) => match domain_at h m i with Some d => store v (PyDomain d) h | None => None end
      | _ => raise
      end
  | DomainNamed v w name =>
      match lookup w e with
      | Some (PyMesh m) =>
          match meshes h m with
          | None => None
          | Some _ => store v (match domain_named h m name with Some d => PyDomain d | None => PyNone end) h
          end
      | _ => raise
      end
  (* Domain.h:27 *)
  | MeshOf v w =>
      match lookup w e with
      | Some (PyDomain d) => match domain_mesh h d with Some (At m) => match meshes h m with Some _ => store v (PyMesh m) h | None => None end | _ => None end
      | _ => raise
      end
  (* BarycentricContainer.h (Python):63-65, Topology/BarycentricContainer.h:54-89: all the elements are read; an empty
     domain is refused *)
  | Embed v w elements =>
      match lookup w e with
      | Some (PyDomain d) =>
          match number_of_elements h d with
          | None => None
          | Some n =>
              if n =? 0 then raise
              else match option_all (element_nodes h d) (seq 0 n) with
                   | Some _ => if forallb (fun k => k <? n) elements then store v (PyContainer d elements) h else None
                   | None => None
                   end
          end
      | _ => raise
      end
  | Alias v w => match lookup w e with Some x => store v x h | None => raise end
  | Del v => match lookup v e with Some _ => let (h, e) := delete v h e in Some (h, e, Nothing) | None => raise end
  | NumberOfDomains w =>
      match lookup w e with
      | Some (PyMesh m) => match number_of_domains h m with Some n => Some (h, e, Number n) | None => None end
      | _ => raise
      end
  (* Domain.h:18-26 *)
  | NumberOfElements w =>
      match lookup w e with
      | Some (PyDomain d) => match number_of_elements h d with Some n => Some (h, e, Number n) | None => None end
      | _ => raise
      end
  | ElementIndices w k =>
      match lookup w e with
      | Some (PyDomain d) => match element_indices h d k with Some l => Some (h, e, Indices l) | None => None end
      | _ => raise
      end
  | ElementOf w k =>
      match lookup w e with
      | Some (PyDomain d) => match element_nodes h d k with Some l => Some (h, e, Nodes l) | None => None end
      | _ => raise
      end
  (* BarycentricContainer.h (Python):16-33, Topology/BarycentricContainer.h:176-231 *)
  | Interpolate w =>
      match lookup w e with
      | Some (PyContainer d elements) =>
          match domain_mesh h d with
          | Some (At m) =>
              match meshes h m, option_all (element_indices h d) elements, option_all (element_nodes h d) elements with
              | Some _, Some l, Some _ => Some (h, e, Rows l)
              | _, _, _ => None
              end
          | _ => None
          end
      | _ => raise
      end
  end.

(** A script, from a fresh interpreter: the answers, or None when a statement is undefined. *)
Fixpoint run_script (h : heap) (e : environment) (script : list statement) : option (list answer) :=
  match script with
  | [] => Some []
  | s :: script =>
      match step h e s with
      | None => None
      | Some (h, e, a) => match run_script h e script with Some l => Some (a :: l) | None => None end
      end
  end.
Definition python (script : list statement) : option (list answer) := run_script empty_heap [] script.
