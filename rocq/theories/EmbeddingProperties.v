(** C99: an embedding gets the topology the scene describes, and maps with the current embedding or not at all. *)

From Coq Require Import String Ascii Reals List Arith Bool Lia Lra.
From Verif Require Import SetupModel SetupProperties EmbeddingModel EmbeddingSpec EmbeddingProofs.
From Verif Require GridGeoModel ShapeModel LinAlg BarycentricModel BarycentricSpec Sums BarycentricProofs BarycentricProperties SparseModel MappingModel MappingSpec MappingProofs MappingProperties.
Import ListNotations.
Open Scope nat_scope.

(** A template names the type, whatever the case of the letters. *)
Theorem C99_template : forall order c states arg e, template arg <> ""%string ->
  (create order c states arg = Some e <-> states = true /\ In e order /\ same_name (template arg) (templateName e)).
Proof.
  intros order c states arg e T. assert (A : forall x, canCreate x c states arg = true <-> states = true /\ same_name (template arg) (templateName x)).
  { intros x. unfold canCreate. destruct (String.eqb_spec (lower_string (template arg)) (lower_string (templateName x))) as [E|N].
    - split; [intros H; split; [exact H|apply same_name_spec, E]|intros [H _]; exact H].
    - destruct (String.eqb_spec (template arg) ""); [congruence|]. cbn [negb]. split; [discriminate|]. intros [_ S]. apply same_name_spec in S. congruence. }
  split.
  - intros H. destruct (create_some _ _ _ _ _ H) as [Hin Hc]. apply A in Hc. tauto.
  - intros (Hs & Hin & Hn). apply create_unique; [exact Hin|apply A; split; assumption|]. intros e' He'. apply A in He'. destruct He' as [_ He'].
    apply names_distinct. apply same_name_spec in Hn, He'. congruence.
Qed.
Print Assumptions C99_template.

(** Without template, the path of a topology from the root decides the type, and that topology is used. *)
Theorem C99_absolute_link : forall order scene c states path e, context_in scene c -> unique_names scene -> path <> [] -> Forall plain path ->
  (create order c states (Description "" ("@/" ++ join path)) = Some e <->
   states = true /\ In e order /\ exists o id, placed_at scene path o /\ topology o = Some (e, id)) /\
  (forall o id, placed_at scene path o -> topology o = Some (e, id) -> topology_used e c (Description "" ("@/" ++ join path)) = Some id).
Proof.
  intros order scene c states path e C U N F.
  assert (R : find_path (root c) (String "/" (join path)) = find_path c (String "/" (join path))).
  { unfold find_path. rewrite root_root. reflexivity. }
  assert (A : forall x, canCreate x c states (Description "" ("@/" ++ join path)) = true <-> states = true /\ exists o id, placed_at scene path o /\ topology o = Some (x, id)).
  { intros x. rewrite deduced. change (String.eqb ("@/" ++ join path) "") with false. cbv iota. change (substr1 ("@/" ++ join path)) with (String "/" (join path)).
    rewrite R. destruct (find_path c (String "/" (join path))) as [o|] eqn:Ef.
    - apply (absolute_path c scene path o C U N F) in Ef. destruct (as_topology x o) as [id|] eqn:Et.
      + apply as_topology_spec in Et. split; [intros H; split; [exact H|exists o, id; split; assumption]|intros [H _]; exact H].
      + split; [discriminate|]. intros (_ & o' & id & Hp & Ht). apply (absolute_path c scene path o' C U N F) in Hp. apply (absolute_path c scene path o C U N F) in Ef.
        rewrite Ef in Hp. injection Hp as <-. apply as_topology_spec in Ht. congruence.
    - split; [discriminate|]. intros (_ & o & id & Hp & _). apply (absolute_path c scene path o C U N F) in Hp. congruence. }
  split; [split|].
  - intros H. destruct (create_some _ _ _ _ _ H) as [Hin Hc]. apply A in Hc. tauto.
  - intros (Hs & Hin & Hn). apply create_unique; [exact Hin|apply A; split; assumption|]. intros e' He'. apply A in He'. destruct He' as (_ & o' & id' & Hp' & Ht').
    destruct Hn as (o & id & Hp & Ht). apply (absolute_path c scene path _ C U N F) in Hp, Hp'. rewrite Hp in Hp'. injection Hp' as <-. congruence.
  - intros o id Hp Ht. apply (absolute_path c scene path o C U N F) in Hp. apply as_topology_spec in Ht. unfold topology_used, link. cbn [topology_attribute append].
    change ("/" ++ join path)%string with (String "/" (join path)). rewrite Hp, Ht. reflexivity.
Qed.
Print Assumptions C99_absolute_link.

(** Without template and without link: some topology of the type is above or here; the one that is used is the nearest of its
    type above the node, and otherwise in the node.  If the topologies that can be reached are of one type, it is that one. *)
Theorem C99_deduced : forall order c e,
  (create order c true (Description "" "") = Some e ->
   exists id, topology_used e c (Description "" "") = Some id /\ (nearest e (tl c) id \/ (~ reachable e (tl c) /\ nearest e c id))) /\
  (In e order -> reachable e c -> (forall e', reachable e' c -> e' = e) -> create order c true (Description "" "") = Some e) /\
  (create order c true (Description "" "") = None <-> forall e', In e' order -> ~ reachable e' c).
Proof.
  intros order c e. assert (A : forall x, canCreate x c true (Description "" "") = true <-> search x c <> None).
  { intros x. rewrite deduced. cbn [String.eqb]. destruct (search x c); split; congruence. }
  assert (B : forall x, search x c <> None <-> ~ ~ reachable x c) by (intros x; pose proof (search_none x c); tauto).
  split; [|split; [|split]].
  - intros H. destruct (create_some _ _ _ _ _ H) as [_ Hc]. apply A in Hc. destruct (search e c) as [id|] eqn:E; [|congruence]. exists id. split; [exact E|exact (search_some e c id E)].
  - intros Hin Hr Hu. apply create_unique; [exact Hin|apply A, B; tauto|]. intros e' He'. apply A in He'. destruct (search e' c) as [id|] eqn:E; [|congruence].
    apply Hu. destruct (search_some e' c id E) as [K|[_ K]]; [|exact (nearest_reachable _ _ _ K)].
    destruct (nearest_reachable _ _ _ K) as (t & i & Ht & Hh). exists t, i. split; [|exact Hh]. destruct c; [destruct Ht|right; exact Ht].
  - intros H e' Hin. unfold create in H. pose proof (find_none _ _ H e' Hin) as X. cbv beta in X. intros Hr. assert (Y : canCreate e' c true (Description "" "") = true) by (apply A, B; tauto). congruence.
  - intros H. destruct (create order c true (Description "" "")) as [e'|] eqn:E; [|reflexivity]. exfalso. destruct (create_some _ _ _ _ _ E) as [Hin Hc].
    apply A, B in Hc. exact (Hc (H e' Hin)).
Qed.
Print Assumptions C99_deduced.

(** Refuted: a link to a topology of the parent node, "@../name", is refused without template, although init would resolve it.  More generally the path is
    looked up from the root. *)
Theorem C99_relative_link_refuted : forall order c states n, create order c states (Description "" ("@../" ++ n)) = None.
Proof.
  intros order c states n. unfold create. apply find_none_all. intros e _. rewrite deduced. change (String.eqb ("@../" ++ n) "") with false. cbv iota.
  change (substr1 ("@../" ++ n)) with ("../" ++ n)%string. rewrite up_from_root. reflexivity.
Qed.
Print Assumptions C99_relative_link_refuted.

(** Refuted: the name of a topology of the node itself.  It is refused if the root has no object of that name; otherwise the type is that of the object of
    the root, and, if the two differ, the linked topology is silently replaced by another one. *)
Theorem C99_local_link_refuted : forall order scene t up n o2 e2 id2 states, context_in scene (t :: up) -> unique_names t -> plain n ->
  In o2 (objects t) -> name o2 = n -> topology o2 = Some (e2, id2) ->
  link e2 (t :: up) ("@" ++ n) = Some id2 /\
  ((forall o, In o (objects scene) -> name o <> n) -> create order (t :: up) states (Description "" ("@" ++ n)) = None) /\
  (forall o1 e1 id1, unique_names scene -> In o1 (objects scene) -> name o1 = n -> topology o1 = Some (e1, id1) -> e1 <> e2 -> In e1 order ->
   create order (t :: up) true (Description "" ("@" ++ n)) = Some e1 /\
   exists id, topology_used e1 (t :: up) (Description "" ("@" ++ n)) = Some id /\ (nearest e1 up id \/ nearest e1 (t :: up) id)).
Proof.
  intros order scene t up n o2 e2 id2 states C U P Ho2 N2 T2.
  assert (D : forall x s, canCreate x (t :: up) s (Description "" ("@" ++ n)) =
    match find (fun o => String.eqb (name o) n) (objects scene) with Some o => match as_topology x o with Some _ => s | None => false end | None => false end).
  { intros x s. rewrite deduced. cbn [append String.eqb]. change (substr1 (String "@" n)) with n. rewrite (context_root scene _ C), (find_plain _ n P). reflexivity. }
  assert (F2 : find_path (t :: up) n = Some o2).
  { rewrite (find_plain _ n P). cbn [resolve]. rewrite <- N2. apply find_name; [apply U; constructor|exact Ho2]. }
  split; [|split].
  - unfold link. cbn [append]. rewrite F2. apply as_topology_spec, T2.
  - intros H. unfold create. apply find_none_all. intros e _. rewrite D. rewrite find_none_all; [reflexivity|]. intros o Ho. apply String.eqb_neq, H, Ho.
  - intros o1 e1 id1 Us Ho1 N1 T1 Ne Hin. assert (F1 : find (fun o => String.eqb (name o) n) (objects scene) = Some o1).
    { rewrite <- N1. apply find_name; [apply Us; constructor|exact Ho1]. }
    split.
    + apply create_unique; [exact Hin|rewrite D, F1; rewrite (proj2 (as_topology_spec e1 o1 id1) T1); reflexivity|]. intros e'. rewrite D, F1.
      destruct (as_topology e' o1) as [i|] eqn:E; [|discriminate]. intros _. apply as_topology_spec in E. congruence.
    + unfold topology_used, link. cbn [topology_attribute append]. rewrite F2.
      destruct (as_topology e1 o2) as [i|] eqn:E; [apply as_topology_spec in E; congruence|].
      destruct (search e1 (t :: up)) as [id|] eqn:S.
      * exists id. split; [reflexivity|]. destruct (search_some _ _ _ S) as [K|[_ K]]; [left; exact K|right; exact K].
      * exfalso. apply search_none in S. apply S. exists scene, id1. split; [|exists o1; split; assumption].
        clear - C. remember (t :: up) as c eqn:Ec. clear Ec. induction C as [|a b c C IH Ha]; [left; reflexivity|right; exact IH].
Qed.
Print Assumptions C99_local_link_refuted.

(** Refuted: the topology of the parent is not always preferred to those farther up: the order of the instantiations in the factory decides. *)
Theorem C99_nearest_refuted : forall before e1 after e2 i1 i2, e1 <> e2 -> ~ In e2 before -> exists scene t u c,
  c = [t; u; scene] /\ context_in scene c /\ holds u e2 i2 /\ nearest e2 c i2 /\ nearest e1 c i1 /\ ~ reachable e1 [t; u] /\
  create (before ++ e1 :: after) c true (Description "" "") = Some e1 /\ topology_used e1 c (Description "" "") = Some i1.
Proof.
  intros before e1 after e2 i1 i2 Ne Nb. set (t := Node "mapping" [] []). set (u := Node "parent" [Object "near" (Some (e2, i2))] [t]).
  set (s := Node "root" [Object "far" (Some (e1, i1))] [u]). exists s, t, u, [t; u; s].
  assert (E12 : element_type_eqb e1 e2 = false) by (destruct (element_type_eqb e1 e2) eqn:E; [apply element_type_eqb_spec in E; congruence|reflexivity]).
  assert (E11 : element_type_eqb e1 e1 = true) by (apply element_type_eqb_spec; reflexivity).
  assert (E22 : element_type_eqb e2 e2 = true) by (apply element_type_eqb_spec; reflexivity).
  assert (S : forall x, search x [t; u; s] = if element_type_eqb x e2 then Some i2 else if element_type_eqb x e1 then Some i1 else None).
  { intros x. unfold search, get. cbn. unfold as_topology. cbn. destruct (element_type_eqb x e2); [reflexivity|]. destruct (element_type_eqb x e1); reflexivity. }
  split; [reflexivity|]. split; [constructor; [constructor; [constructor|left; reflexivity]|left; reflexivity]|].
  split; [exists (Object "near" (Some (e2, i2))); split; [left; reflexivity|reflexivity]|].
  split; [apply get_nearest; unfold get; cbn; unfold as_topology; cbn; rewrite E22; reflexivity|].
  split; [apply get_nearest; unfold get; cbn; unfold as_topology; cbn; rewrite E12, E11; reflexivity|].
  split; [apply get_none; unfold get; cbn; unfold as_topology; cbn; rewrite E12; reflexivity|].
  split.
  - unfold create. induction before as [|x before IH]; cbn [app find].
    + rewrite deduced. cbn [String.eqb]. rewrite S, E12, E11. reflexivity.
    + rewrite deduced. cbn [String.eqb]. rewrite S. destruct (element_type_eqb x e2) eqn:Ex2.
      * apply element_type_eqb_spec in Ex2. exfalso. apply Nb. left. exact Ex2.
      * destruct (element_type_eqb x e1) eqn:Ex1; [apply element_type_eqb_spec in Ex1; subst; reflexivity|]. apply IH. intros K. apply Nb. right. exact K.
  - unfold topology_used. cbn [topology_attribute link]. rewrite S, E12, E11. reflexivity.
Qed.
Print Assumptions C99_nearest_refuted.

(** ** The embedding in use *)
Import GridGeoModel ShapeModel BarycentricModel.
Open Scope nat_scope.

Lemma run_snoc h e : run (h ++ [e]) = match run h with Some w => step w e | None => None end.
Proof. unfold run. rewrite fold_left_app. reflexivity. Qed.
Lemma ids h : forall w, run h = Some w ->
  match current w with Some (id, _) => id < next w | None => True end /\ match domain_of_container (component w) with Some (id, _, _) => id < next w | None => True end.
Proof.
  induction h as [|e h IH] using rev_ind; intros w H; [injection H as <-; split; exact I|]. rewrite run_snoc in H. destruct (run h) as [v|]; [|discriminate].
  destruct (IH v eq_refl) as [H1 H2]. destruct e as [d|n to]; cbn [step] in H.
  - injection H as <-. cbn. split; [lia|]. destruct (domain_of_container (component v)) as [[[i ?] ?]|]; [lia|exact I].
  - unfold init in H. destruct (current v) as [[id d]|] eqn:Ec; [|injection H as <-; cbn; try rewrite Ec; tauto].
    destruct (n =? 0); [injection H as <-; cbn; try rewrite Ec; tauto|]. destruct (length (position to) =? 0); [injection H as <-; cbn; try rewrite Ec; tauto|].
    destruct (embed d _) as [c|]; [|injection H as <-; try rewrite Ec; tauto]. destruct (outside_nodes c).
    + destruct (forallb _ _); [|discriminate]. injection H as <-. cbn. tauto.
    + injection H as <-. cbn. tauto.
Qed.
Lemma embedded_init to : match rest_position to with [] => position to | _ => rest_position to end = embedded_positions to.
Proof. unfold embedded_positions. destruct (rest_position to); reflexivity. Qed.
Lemma embed_some d l : connectivity d <> [] -> exists c, embed d l = Some c.
Proof. intros H. exact (proj1 (BarycentricProperties.C32_built d l) H). Qed.

(** An initialisation without a topology, without elements, without parent nodes or without mapped nodes changes nothing: the mapping goes on with the
    embedding it had. *)
Theorem C99_refused : forall h n to w, run h = Some w ->
  current w = None \/ n = 0 \/ position to = [] \/ (exists id d, current w = Some (id, d) /\ connectivity d = []) ->
  run (h ++ [MappingInit n to]) = Some w.
Proof.
  intros h n to w H C. rewrite run_snoc, H. cbn [step]. assert (E : init (current w) n to (component w) = Throws \/ exists r, init (current w) n to (component w) = Done (component w, r)).
  { unfold init. destruct (current w) as [[id d]|] eqn:Ec; [|right; eexists; reflexivity]. destruct (Nat.eqb_spec n 0) as [Z|Z]; [right; eexists; reflexivity|].
    destruct (Nat.eqb_spec (length (position to)) 0) as [L|L]; [right; eexists; reflexivity|]. left.
    destruct C as [C|[C|[C|(id' & d' & C & D)] ] ]; [discriminate|congruence|rewrite C in L; cbn in L; congruence|]. injection C as <- <-.
    unfold embed, build. rewrite D. reflexivity. }
  destruct E as [->|[r ->] ]; [reflexivity|]. destruct w; reflexivity.
Qed.
Print Assumptions C99_refused.

(** After any history that ends with the initialisation of the mapping, on a topology with elements and mechanical objects that are not empty, the
    mapping works with the embedding of the mapped rest positions in the elements of that time (whose properties are those of C61). *)
Theorem C99_current : forall h n to w id d, run (h ++ [MappingInit n to]) = Some w -> current w = Some (id, d) -> connectivity d <> [] ->
  n <> 0 -> position to <> [] ->
  exists m, MappingModel.init d (embedded_positions to) = Some m /\
    (forall D v old, apply (current w) (component w) D v old = match MappingModel.apply m D v old with Some x => Done x | None => Throws end) /\
    (n = length (positions d) -> length (embedded_positions to) = length (position to) ->
     forall D f old, applyJT (component w) D f old = MappingModel.applyJT m D f old).
Proof.
  intros h n to w id d H Hc He Hn Hp. rewrite run_snoc in H. destruct (run h) as [v|]; [|discriminate]. cbn [step] in H.
  assert (Cv : current v = Some (id, d)).
  { destruct (init (current v) n to (component v)) as [[m r]| |]; [|injection H as <-; exact Hc|discriminate]. injection H as <-. exact Hc. }
  unfold init in H. rewrite Cv in H. destruct (Nat.eqb_spec n 0) as [->|_]; [congruence|].
  destruct (Nat.eqb_spec (length (position to)) 0) as [E|_]; [apply length_zero_iff_nil in E; congruence|].
  rewrite embedded_init in H. destruct (embed_some d (embedded_positions to) He) as [c E]. rewrite E in H. unfold MappingModel.init. rewrite E. eexists. split; [reflexivity|].
  destruct (outside_nodes c) as [|o os] eqn:O.
  - destruct (forallb _ _); [|discriminate]. injection H as <-. cbn [current component]. split.
    + intros D v' old. unfold apply, MappingModel.apply, MappingModel.usable. cbn [domain_of_container MappingModel.m_container MappingModel.m_domain]. rewrite O, Nat.eqb_refl. reflexivity.
    + intros -> L D f old. rewrite <- L. unfold applyJT. cbn [domain_of_container J_rows J_cols J_entries]. reflexivity.
  - injection H as <-. cbn [current component]. split.
    + intros D v' old. unfold apply, MappingModel.apply, MappingModel.usable. cbn [domain_of_container MappingModel.m_container MappingModel.m_domain]. rewrite O. reflexivity.
    + intros _ _ D f old. unfold applyJT, MappingModel.applyJT, MappingModel.usable. cbn [domain_of_container MappingModel.m_container]. rewrite O. reflexivity.
Qed.
Print Assumptions C99_current.

(** The initialisation is defined when the mechanical objects have the nodes they should have. *)
Theorem C99_defined : forall h n to w id d, run h = Some w -> current w = Some (id, d) -> MappingSpec.well_formed d ->
  length (positions d) <= n -> length (embedded_positions to) <= length (position to) -> run (h ++ [MappingInit n to]) <> None.
Proof.
  intros h n to w id d H Hc W Hn Hl. rewrite run_snoc, H. cbn [step]. unfold init. rewrite Hc. destruct (n =? 0); [discriminate|].
  destruct (length (position to) =? 0); [discriminate|]. rewrite embedded_init. destruct (embed d (embedded_positions to)) as [c|] eqn:E; [|discriminate].
  destruct (outside_nodes c) eqn:O; [|discriminate].
  assert (M : MappingModel.init d (embedded_positions to) = Some {| MappingModel.m_domain := d; MappingModel.m_container := c; MappingModel.J_rows := length (embedded_positions to);
     MappingModel.J_cols := length (positions d); MappingModel.J_entries := MappingModel.mapping_entries d c |}) by (unfold MappingModel.init; rewrite E, O; reflexivity).
  destruct (MappingProofs.init_usable d _ _ M) as (_ & _ & Lb & _ & _ & _ & Em); [unfold MappingModel.usable; cbn; rewrite O; reflexivity|]. cbn [MappingModel.m_container] in Lb, Em.
  pose proof (MappingProofs.entries_columns d c W Em) as F. destruct (forallb _ _) eqn:B; [discriminate|]. exfalso.
  assert (T : forallb (fun t => (fst (fst t) <? length (position to)) && (snd (fst t) <? n)) (MappingModel.mapping_entries d c) = true); [|congruence].
  apply forallb_forall. intros t Ht. rewrite Forall_forall in F. destruct (F t Ht) as [Fc Fr]. unfold SparseModel.col_of, SparseModel.row_of in *.
  apply andb_true_intro. split; apply Nat.ltb_lt; lia.
Qed.
Print Assumptions C99_defined.

(** Refuted: the sizes are not compared.  If a mapped point is in an element one of whose nodes the parent mechanical object does not have, the
    initialisation writes outside of the matrix. *)
Theorem C99_sizes_refuted : forall h n to w id d m i k xi, run h = Some w -> current w = Some (id, d) -> MappingSpec.well_formed d -> n <> 0 -> position to <> [] ->
  MappingModel.init d (embedded_positions to) = Some m -> MappingModel.usable m = true ->
  nth_error (barycentric_points (MappingModel.m_container m)) i = Some (Z.of_nat k, xi) -> (exists node, In node (nth k (connectivity d) []) /\ n <= node) ->
  run (h ++ [MappingInit n to]) = None.
Proof.
  intros h n to w id d m i k xi H Hc W Hn Hp M U Hi (node & Hnode & Hbig). rewrite run_snoc, H. cbn [step]. unfold init. rewrite Hc.
  destruct (Nat.eqb_spec n 0) as [->|_]; [congruence|]. destruct (Nat.eqb_spec (length (position to)) 0) as [E|_]; [apply length_zero_iff_nil in E; congruence|].
  rewrite embedded_init. destruct (MappingProofs.init_usable d _ _ M U) as (_ & O & Lb & _ & _ & _ & Em). unfold MappingModel.init in M. destruct (embed d (embedded_positions to)) as [c|]; [|discriminate].
  assert (Ec : MappingModel.m_container m = c) by (injection M as <-; destruct (outside_nodes c); reflexivity). rewrite Ec in *. rewrite O.
  destruct (forallb _ _) eqn:B; [|reflexivity]. exfalso. rewrite forallb_forall in B.
  assert (Hb : MappingProofs.embedded d (Z.of_nat k, xi)) by (rewrite Forall_forall in Em; apply Em; exact (nth_error_In _ _ Hi)).
  destruct (MappingProofs.embedded_row d W _ Hb) as [Lr _]. cbn [fst snd] in Lr. rewrite Nat2Z.id in Lr.
  apply In_nth_error in Hnode. destruct Hnode as [j Hj]. assert (Hj' : j < length (nth k (connectivity d) [])) by (apply nth_error_Some; congruence).
  assert (T : In (i, node, nth j (L (kind d) xi) 0%R) (MappingModel.mapping_entries d c)).
  { unfold MappingModel.mapping_entries. apply in_flat_map. exists (i, (Z.of_nat k, xi)). split.
    - rewrite MappingProofs.combine_points. apply in_map_iff. exists i. split; [rewrite (nth_error_nth _ _ _ Hi); reflexivity|]. apply in_seq.
      assert (i < length (barycentric_points c)) by (apply nth_error_Some; congruence). lia.
    - unfold MappingModel.point_entries. cbn [fst snd]. rewrite Nat2Z.id, Sums.map2_combine. apply in_map_iff. exists (node, nth j (L (kind d) xi) 0%R). split; [reflexivity|].
      rewrite <- (nth_error_nth _ _ 0 Hj). rewrite <- combine_nth by exact Lr. apply nth_In. rewrite combine_length, <- Lr. lia. }
  specialize (B _ T). cbn [fst snd] in B. apply andb_prop in B. destruct B as [_ B]. apply Nat.ltb_lt in B. lia.
Qed.
Print Assumptions C99_sizes_refuted.

(** Refuted: once the mapping is active, a new initialisation of the topology destroys the elements it points to: positions and velocities are mapped from
    freed memory, while forces go on with the old matrix. *)
Theorem C99_stale_refuted : forall h w d D v old, run h = Some w -> active (component w) -> exists w',
  run (h ++ [TopologyInit d]) = Some w' /\ apply (current w') (component w') D v old = Undefined /\
  forall f forces, applyJT (component w') D f forces = applyJT (component w) D f forces.
Proof.
  intros h w d D v old H (id & d0 & c & Hd & O). exists (World (Some (next w, d)) (S (next w)) (component w)). split; [rewrite run_snoc, H; reflexivity|]. cbn [current component].
  split; [|reflexivity]. destruct (ids h w H) as [_ K]. rewrite Hd in K. unfold apply. rewrite Hd, O. destruct (Nat.eqb_spec id (next w)); [lia|reflexivity].
Qed.
Print Assumptions C99_stale_refuted.

(** ** Examples *)
Definition tet := ElementType Tetrahedron Linear.
Definition hex := ElementType Hexahedron Linear.
Definition embedding_node := Node "surface" [Object "state" None] [].
Definition parent_node := Node "body" [Object "mesh" (Some (tet, 7)); Object "state" None] [embedding_node].
Definition scene_root := Node "root" [] [parent_node].

(** The usual scene: the topology is found in the parent; it is also found by its path from the root, but not by "@../mesh". *)
Example C99_usual_scene : context_in scene_root [embedding_node; parent_node; scene_root] /\ unique_names scene_root /\ Forall plain ["body"; "mesh"]%string /\
  placed_at scene_root ["body"; "mesh"]%string (Object "mesh" (Some (tet, 7))) /\
  create instantiations [embedding_node; parent_node; scene_root] true (Description "" "") = Some tet /\
  create instantiations [embedding_node; parent_node; scene_root] true (Description "" "@/body/mesh") = Some tet /\
  create instantiations [embedding_node; parent_node; scene_root] true (Description "" "@../mesh") = None /\
  create instantiations [embedding_node; parent_node; scene_root] true (Description "tetrahedron" "@../mesh") = Some tet /\
  link tet [embedding_node; parent_node; scene_root] "@../mesh" = Some 7 /\ topology_used tet [embedding_node; parent_node; scene_root] (Description "" "") = Some 7.
Proof.
  split; [constructor; [constructor; [constructor|left; reflexivity]|left; reflexivity]|]. split.
  - intros u Hu. assert (K : u = scene_root \/ u = parent_node \/ u = embedding_node).
    { induction Hu as [|u v Hu IH Hv]; [left; reflexivity|]. destruct IH as [-> | [-> | ->] ]; cbn in Hv; intuition. }
    destruct K as [-> | [-> | ->] ]; cbn; repeat constructor; cbn; intuition discriminate.
  - split; [|split].
    + assert (G : forall n, n = "body"%string \/ n = "mesh"%string -> plain n).
      { intros n [-> | ->]; (split; [discriminate|split; [discriminate|split; [discriminate|]]]); intros k; do 5 (destruct k as [|k]; [discriminate|]); destruct k; discriminate. }
      repeat constructor; apply G; tauto.
    + apply (Placed_below scene_root parent_node ["mesh"%string]); [left; reflexivity|]. apply (Placed_here parent_node (Object "mesh" (Some (tet, 7)))). left. reflexivity.
    + repeat split.
Qed.

(** Two points embedded in the two triangles of a square, then a new initialisation of the topology. *)
Definition points := [[1/4; 3/4]; [1/2; 1/2]]%R.
Example C99_history : exists w, run [TopologyInit BarycentricSpec.unit_square_triangles; MappingInit 4 (Mechanical points [])] = Some w /\ active (component w) /\
  current w = Some (0, BarycentricSpec.unit_square_triangles) /\ MappingSpec.well_formed BarycentricSpec.unit_square_triangles.
Proof.
  destruct MappingProperties.C61_witness as (m & M & U & W).
  destruct (run [TopologyInit BarycentricSpec.unit_square_triangles; MappingInit 4 (Mechanical points [])]) as [w|] eqn:E.
  - exists w. split; [reflexivity|]. unfold run, fold_left, step, start, init in E. cbn [current next component Nat.eqb position length points rest_position] in E.
    unfold MappingModel.init in M. fold points in M, E. destruct (embed BarycentricSpec.unit_square_triangles points) as [c|] eqn:Ee; [|discriminate].
    injection M as <-. unfold MappingModel.usable in U. destruct (outside_nodes c) eqn:O.
    + cbv iota in E. destruct (forallb _ _) in E; [|discriminate]. injection E as <-. split; [exists 0, BarycentricSpec.unit_square_triangles, c; split; [reflexivity|exact O]|]. split; [reflexivity|exact W].
    + cbn [MappingModel.m_container] in U. rewrite O in U. discriminate.
  - exfalso. refine (C99_defined [TopologyInit BarycentricSpec.unit_square_triangles] 4 (Mechanical points []) _ 0 BarycentricSpec.unit_square_triangles eq_refl eq_refl W _ _ E); cbn; lia.
Qed.
(** The same square with a parent mechanical object of one node. *)
Example C99_one_node : run [TopologyInit BarycentricSpec.unit_square_triangles; MappingInit 1 (Mechanical points [])] = None.
Proof.
  destruct MappingProperties.C61_witness as (m & M & U & W). destruct (MappingProofs.init_usable _ _ _ M U) as (_ & _ & Lb & _ & _ & _ & Em).
  destruct (barycentric_points (MappingModel.m_container m)) as [|[z xi] l] eqn:B; [discriminate|]. apply Forall_cons_iff in Em. destruct Em as [(_ & k & Hk & Ez) _]. cbn [fst] in Ez. subst z.
  refine (C99_sizes_refuted [TopologyInit BarycentricSpec.unit_square_triangles] 1 (Mechanical points []) _ 0 BarycentricSpec.unit_square_triangles m 0 k xi eq_refl eq_refl W _ _ M U _ _);
    [discriminate|discriminate|rewrite B; reflexivity|].
  cbn in Hk. exists 2. split; [|lia]. destruct k as [|k]; [cbn; tauto|]. destruct k; [cbn; tauto|lia].
Qed.
