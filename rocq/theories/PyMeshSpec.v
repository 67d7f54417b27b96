(** Vocabulary for scripts (C88): what the writer of a script believes.  Meshes are numbered in the order of their
    creation and are never destroyed; a domain is the j-th table given to the k-th mesh. *)

From Coq Require Import String List Arith ZArith Bool.
From Verif Require Import PyMeshModel.
Import ListNotations.
Open Scope nat_scope.

Inductive thing := INone | IMesh (k : nat) | IDomain (k j : nat) | IContainer (k j : nat) (elements : list nat).
Record mesh_given := { nodes_given : list (list Z); tables_given : list (string * list (list nat)) }.
Record belief := { given : list mesh_given; variables : list (nat * thing) }.

Definition mesh_of (b : belief) (k : nat) : mesh_given := nth k (given b) {| nodes_given := []; tables_given := [] |}.
Definition table_of (b : belief) (k j : nat) : list (list nat) := snd (nth j (tables_given (mesh_of b k)) (EmptyString, [])).

(** Position of the first table of a name. *)
Fixpoint position (name : string) (l : list (string * list (list nat))) : option nat :=
  match l with
  | [] => None
  | x :: l => if String.eqb (fst x) name then Some 0 else option_map S (position name l)
  end.
Fixpoint replace {A : Type} (k : nat) (x : A) (l : list A) : list A :=
  match l, k with
  | [], _ => []
  | _ :: l, 0 => x :: l
  | y :: l, S k => y :: replace k x l
  end.

Definition set_variable (v : nat) (x : thing) (b : belief) : belief :=
  {| given := given b; variables := bind v x (variables b) |}.
Definition node_positions (b : belief) (k : nat) (row : list nat) : option (list (list Z)) :=
  option_all (nth_error (nodes_given (mesh_of b k))) row.

(** The effect expected of a statement; None: an index out of range, which no one expects to work. *)
Definition expect (b : belief) (s : statement) : option (belief * answer) :=
  let raise := Some (b, Raises) in
  let get v x := Some (set_variable v x b, Nothing) in
  match s with
  | NewMesh v nodes =>
      Some ({| given := given b ++ [{| nodes_given := nodes; tables_given := [] |}];
               variables := bind v (IMesh (length (given b))) (variables b) |}, Nothing)
  | AddDomain v w name element_nodes nb_cols t =>
      match lookup w (variables b) with
      | Some (IMesh k) =>
          if nb_cols =? element_nodes then
            let M := mesh_of b k in
            Some ({| given := replace k {| nodes_given := nodes_given M; tables_given := tables_given M ++ [(name, t)] |} (given b);
                     variables := bind v (IDomain k (length (tables_given M))) (variables b) |}, Nothing)
          else raise
      | _ => raise
      end
  | DomainAt v w i =>
      match lookup w (variables b) with
      | Some (IMesh k) => if i <? length (tables_given (mesh_of b k)) then get v (IDomain k i) else None
      | _ => raise
      end
  | DomainNamed v w name =>
      match lookup w (variables b) with
      | Some (IMesh k) => get v (match position name (tables_given (mesh_of b k)) with Some j => IDomain k j | None => INone end)
      | _ => raise
      end
  | MeshOf v w => match lookup w (variables b) with Some (IDomain k _) => get v (IMesh k) | _ => raise end
  | Embed v w elements =>
      match lookup w (variables b) with
      | Some (IDomain k j) =>
          let t := table_of b k j in
          if length t =? 0 then raise
          else match option_all (node_positions b k) t with
               | Some _ => if forallb (fun e => e <? length t) elements then get v (IContainer k j elements) else None
               | None => None
               end
      | _ => raise
      end
  | Alias v w => match lookup w (variables b) with Some x => get v x | None => raise end
  | Del v =>
      match lookup v (variables b) with
      | Some _ => Some ({| given := given b; variables := unbind v (variables b) |}, Nothing)
      | None => raise
      end
  | NumberOfDomains w =>
      match lookup w (variables b) with Some (IMesh k) => Some (b, Number (length (tables_given (mesh_of b k)))) | _ => raise end
  | NumberOfElements w =>
      match lookup w (variables b) with Some (IDomain k j) => Some (b, Number (length (table_of b k j))) | _ => raise end
  | ElementIndices w e =>
      match lookup w (variables b) with
      | Some (IDomain k j) => match nth_error (table_of b k j) e with Some row => Some (b, Indices row) | None => None end
      | _ => raise
      end
  | ElementOf w e =>
      match lookup w (variables b) with
      | Some (IDomain k j) =>
          match nth_error (table_of b k j) e with
          | Some row => match node_positions b k row with Some l => Some (b, Nodes l) | None => None end
          | None => None
          end
      | _ => raise
      end
  | Interpolate w =>
      match lookup w (variables b) with
      | Some (IContainer k j elements) => Some (b, Rows (map (fun e => nth e (table_of b k j) []) elements))
      | _ => raise
      end
  end.

(** The variable through which a statement reads a domain. *)
Definition used (s : statement) : option nat :=
  match s with
  | MeshOf _ w | Embed _ w _ | NumberOfElements w | ElementIndices w _ | ElementOf w _ | Interpolate w => Some w
  | _ => None
  end.
(** Some variable holds the mesh number k. *)
Definition holds_mesh (b : belief) (k : nat) : bool :=
  existsb (fun x => match snd x with IMesh k' => k' =? k | _ => false end) (variables b).
(** The statement uses a domain, directly or through a container, while no variable holds its mesh. *)
Definition uses_orphan (b : belief) (s : statement) : bool :=
  match used s with
  | None => false
  | Some w =>
      match s, lookup w (variables b) with
      | Interpolate _, Some (IContainer k _ _) => negb (holds_mesh b k)
      | Interpolate _, _ => false
      | _, Some (IDomain k _) => negb (holds_mesh b k)
      | _, _ => false
      end
  end.

Definition nothing_yet : belief := {| given := []; variables := [] |}.
Fixpoint expected_answers (b : belief) (script : list statement) : option (list answer) :=
  match script with
  | [] => Some []
  | s :: script =>
      match expect b s with
      | None => None
      | Some (b, a) => match expected_answers b script with Some l => Some (a :: l) | None => None end
      end
  end.
(** The script keeps a reference to the mesh of each domain it uses, when it uses it. *)
Fixpoint keeps_meshes (b : belief) (script : list statement) : bool :=
  match script with
  | [] => true
  | s :: script => negb (uses_orphan b s) && match expect b s with None => true | Some (b, _) => keeps_meshes b script end
  end.
(** The tables given are matrices. *)
Definition matrix_statement (s : statement) : Prop :=
  match s with AddDomain _ _ _ _ nb_cols t => Forall (fun row => length row = nb_cols) t | _ => True end.
(** The belief after the statements of a script. *)
Fixpoint believe (b : belief) (script : list statement) : option belief :=
  match script with
  | [] => Some b
  | s :: script => match expect b s with None => None | Some (b, _) => believe b script end
  end.
