(** C88: objects obtained from a Python script stay usable. *)

From Coq Require Import String List Arith ZArith Bool Lia.
From Verif Require Import MeshModel PyMeshModel PyMeshSpec PyMeshProofs.
Import ListNotations.
Open Scope nat_scope.

(** A script that holds the mesh of each domain it uses gets, statement after statement, exactly the answers its writer
    expects: the tables given, the nodes given, whatever meshes, domains and containers were made, renamed, aliased or
    deleted before; a statement is undefined only when it reads out of range. *)
Theorem C88_usable_while_mesh_held_partial : forall script, Forall matrix_statement script -> keeps_meshes nothing_yet script = true ->
  python script = expected_answers nothing_yet script.
Proof.
  intros script F. unfold python. rewrite (run_guarded script nothing_yet _ _ _ _ start_sim F). clear F.
  generalize nothing_yet. induction script as [|s script IH]; intros b H; [reflexivity|].
  cbn [keeps_meshes] in H. apply andb_true_iff in H. destruct H as [H0 H]. cbn [guarded_answers expected_answers]. unfold guarded.
  apply negb_true_iff in H0. rewrite H0. destruct (expect b s) as [[b' a]|]; [|reflexivity]. rewrite (IH b' H). reflexivity.
Qed.
Print Assumptions C88_usable_while_mesh_held_partial.

(** Refuted for the others: the first use of a domain or of a container whose mesh no variable holds any more is
    undefined, in every script, although the writer has reasons to expect an answer. *)
Theorem C88_orphan_use_refuted : forall script b s, Forall matrix_statement script -> matrix_statement s ->
  keeps_meshes nothing_yet script = true -> believe nothing_yet script = Some b -> uses_orphan b s = true ->
  python (script ++ [s]) = None.
Proof.
  intros script b s F Fs K B U. unfold python.
  rewrite (run_guarded _ nothing_yet _ _ _ _ start_sim) by (apply Forall_app; split; [exact F|constructor; [exact Fs|constructor]]).
  clear F Fs. revert K B. generalize nothing_yet. induction script as [|s0 script IH]; intros b0 K B.
  - injection B as ->. cbn [app guarded_answers]. unfold guarded. rewrite U. reflexivity.
  - cbn [keeps_meshes] in K. apply andb_true_iff in K. destruct K as [K0 K]. apply negb_true_iff in K0.
    cbn [believe] in B. cbn [app guarded_answers]. unfold guarded. rewrite K0. destruct (expect b0 s0) as [[b' a]|]; [|reflexivity].
    rewrite (IH b' K B). reflexivity.
Qed.
Print Assumptions C88_orphan_use_refuted.

(** [m = Mesh(nodes); d = m.add_domain("d", E, t); del m; d.number_of_elements()] is undefined, for every matrix [t];
    so is the same with the variable of the mesh given another mesh, and so is the use of a container. *)
Theorem C88_deleted_mesh_refuted : forall nodes n t, Forall (fun row : list nat => length row = n) t ->
  let prefix := [NewMesh 0 nodes; AddDomain 1 0 "d" n n t] in
  (python (prefix ++ [NumberOfElements 1]) = Some [Nothing; Nothing; Number (length t)] /\
   python (prefix ++ [Del 0; NumberOfElements 1]) = None /\
   expected_answers nothing_yet (prefix ++ [Del 0; NumberOfElements 1]) = Some [Nothing; Nothing; Nothing; Number (length t)] /\
   python (prefix ++ [NewMesh 0 nodes; NumberOfElements 1]) = None)%string.
Proof.
  intros nodes n t F prefix. assert (M : Forall matrix_statement prefix) by (constructor; [exact I|constructor; [exact F|constructor]]).
  split; [|split; [|split]].
  - rewrite C88_usable_while_mesh_held_partial.
    + unfold prefix. cbn. rewrite Nat.eqb_refl. reflexivity.
    + apply Forall_app. split; [exact M|constructor; [exact I|constructor]].
    + unfold prefix. cbn. rewrite Nat.eqb_refl. reflexivity.
  - change (prefix ++ [Del 0; NumberOfElements 1]) with ((prefix ++ [Del 0]) ++ [NumberOfElements 1]).
    apply (C88_orphan_use_refuted _ {| given := [{| nodes_given := nodes; tables_given := [("d"%string, t)] |}]; variables := [(1, IDomain 0 0)] |}).
    + apply Forall_app. split; [exact M|constructor; [exact I|constructor]].
    + exact I.
    + unfold prefix. cbn. rewrite Nat.eqb_refl. reflexivity.
    + unfold prefix. cbn. rewrite Nat.eqb_refl. reflexivity.
    + reflexivity.
  - unfold prefix. cbn. rewrite Nat.eqb_refl. reflexivity.
  - change (prefix ++ [NewMesh 0 nodes; NumberOfElements 1]) with ((prefix ++ [NewMesh 0 nodes]) ++ [NumberOfElements 1]).
    apply (C88_orphan_use_refuted _ {| given := [{| nodes_given := nodes; tables_given := [("d"%string, t)] |}; {| nodes_given := nodes; tables_given := [] |}];
      variables := [(0, IMesh 1); (1, IDomain 0 0)] |}).
    + apply Forall_app. split; [exact M|constructor; [exact I|constructor]].
    + exact I.
    + unfold prefix. cbn. rewrite Nat.eqb_refl. reflexivity.
    + unfold prefix. cbn. rewrite Nat.eqb_refl. reflexivity.
    + reflexivity.
Qed.
Print Assumptions C88_deleted_mesh_refuted.

(** A script that keeps its meshes: it deletes the variable of the mesh after [d.mesh()], adds a second domain through it,
    tries a table with the wrong number of columns, and uses the first domain and a container. *)
Definition script_ok : list statement :=
  [NewMesh 0 [[0]; [1]; [2]]%Z; AddDomain 1 0 "left"%string 2 2 [[0; 1]]; MeshOf 2 1; Del 0; AddDomain 3 2 "right"%string 2 2 [[1; 2]; [2; 0]];
   AddDomain 4 2 "bad"%string 2 3 [[0; 1; 2]]; NumberOfDomains 2; NumberOfElements 1; Embed 5 3 [1; 0; 1]; DomainNamed 6 2 "left"%string;
   ElementOf 6 0; DomainAt 7 2 1; ElementIndices 7 1; Interpolate 5].
Example C88_witness_keeps : Forall matrix_statement script_ok /\ keeps_meshes nothing_yet script_ok = true.
Proof. split; [repeat constructor|reflexivity]. Qed.
Example C88_witness : python script_ok =
  Some [Nothing; Nothing; Nothing; Nothing; Nothing; Raises; Number 2; Number 1; Nothing; Nothing; Nodes [[0]; [1]]%Z; Nothing; Indices [2; 0];
        Rows [[2; 0]; [1; 2]; [2; 0]]].
Proof. rewrite C88_usable_while_mesh_held_partial; [reflexivity|apply C88_witness_keeps|apply C88_witness_keeps]. Qed.
(** The same container after the last variable of its mesh is gone. *)
Example C88_witness_container : python (script_ok ++ [Del 2; Interpolate 5]) = None.
Proof. vm_compute. reflexivity. Qed.
