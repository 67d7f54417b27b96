(** C81: a force field gets the element type and the topology the scene describes. *)

From Coq Require Import String Ascii List Arith NArith Bool Lia.
From Verif Require Import TopologyModel TopologyProperties SetupModel.
Import ListNotations.
Open Scope nat_scope.

(** ** Specification vocabulary *)

(** SOFA's hierarchy of containers. *)
Inductive is_a : mesh_class -> mesh_class -> Prop :=
| IsA_refl c : is_a c c
| IsA_tetrahedron c : is_a TriangleSet c -> is_a TetrahedronSet c
| IsA_hexahedron c : is_a QuadSet c -> is_a HexahedronSet c
| IsA_triangle c : is_a EdgeSet c -> is_a TriangleSet c
| IsA_quad c : is_a EdgeSet c -> is_a QuadSet c
| IsA_edge c : is_a PointSet c -> is_a EdgeSet c.
(** The container and the Data made for a shape. *)
Definition container_for (s : shape) : mesh_class :=
  match s with Triangle_2D | Triangle_3D => TriangleSet | Quad_2D | Quad_3D => QuadSet | Tetrahedron => TetrahedronSet | Hexahedron => HexahedronSet end.
Definition data_for (s : shape) : data_name :=
  match s with Triangle_2D | Triangle_3D => Triangles | Quad_2D | Quad_3D => Quads | Tetrahedron => Tetrahedra | Hexahedron => Hexahedra end.
(** A mesh has the Data of every container it is. *)
Definition has_its_data (m : mesh) : Prop := forall s, is_a (class m) (container_for s) -> exists idx, findData m (data_for s) = Some idx.

(** The object holds elements of this type. *)
Inductive holds {P} (e : element_type) : object P -> Prop :=
| Holds_caribou p t : holds e (Object P p (CaribouTopology P e t))
| Holds_mesh p m : order_of e = Linear -> is_a (class m) (container_for (shape_of e)) -> holds e (Object P p (SofaMesh P m)).

(** Two names that differ only by the case of their letters. *)
Definition upper := "ABCDEFGHIJKLMNOPQRSTUVWXYZ"%string.
Definition lower := "abcdefghijklmnopqrstuvwxyz"%string.
Definition same_letter (a b : ascii) : Prop :=
  a = b \/ exists n, (String.get n upper = Some a /\ String.get n lower = Some b) \/ (String.get n lower = Some a /\ String.get n upper = Some b).
Inductive same_name : string -> string -> Prop :=
| Same_empty : same_name EmptyString EmptyString
| Same_cons a b s t : same_letter a b -> same_name s t -> same_name (String a s) (String b t).

(** The elements of a force field, and where their nodes are, are those of these indices at these positions. *)
Definition works_on {P} (f : forcefield P) (pos : list P) (idx : list (list nat)) : Prop := exists t, p_topology P f = Some t /\ shows t pos idx.
(** ... and nothing. *)
Definition works_on_nothing {P} (f : forcefield P) : Prop := number_of_elements_of P f = 0.

(** ** Lemmas *)

Lemma element_type_eqb_spec : forall a b, element_type_eqb a b = true <-> a = b.
Proof.
  intros [sa oa] [sb ob]. unfold element_type_eqb; cbn. split; [|intros E; injection E as -> ->; destruct sb, ob; reflexivity].
  destruct sa, sb, oa, ob; cbn; intros H; try discriminate H; reflexivity.
Qed.
Lemma compatible_spec : forall e c, mesh_is_compatible e c = true <-> order_of e = Linear /\ is_a c (container_for (shape_of e)).
Proof.
  intros [s o] c. unfold mesh_is_compatible; cbn. split.
  - destruct o; [|discriminate]. intros H. split; [reflexivity|]. destruct s, c; try discriminate H; repeat constructor.
  - intros [-> H]. destruct s, c; cbn in H |- *; try reflexivity; exfalso;
    repeat match goal with H : is_a _ _ |- _ => inversion H; clear H; subst end.
Qed.
Lemma usable_spec : forall P e (o : object P), usable P e o = true <-> holds e o.
Proof.
  intros P e [p k]. unfold usable, as_caribou, as_mesh; cbn [kind_of]. destruct k as [e' t|m|].
  - destruct (element_type_eqb e e') eqn:E.
    + apply element_type_eqb_spec in E. subst e'. split; [constructor|reflexivity].
    + split; [discriminate|]. intros H. inversion H; subst. rewrite (proj2 (element_type_eqb_spec e' e') eq_refl) in E. discriminate.
  - rewrite compatible_spec. split; [intros [A B]; constructor; assumption|intros H; inversion H; split; assumption].
  - split; [discriminate|]. intros H; inversion H.
Qed.

Lemma lower_upper : forall n a, String.get n upper = Some a -> String.get n lower = Some (tolower a).
Proof.
  intros n a. do 26 (destruct n as [|n]; [cbn; intros H; injection H as <-; reflexivity|]). cbn. destruct n; discriminate.
Qed.
Lemma lower_lower : forall n a, String.get n lower = Some a -> tolower a = a.
Proof.
  intros n a. do 26 (destruct n as [|n]; [cbn; intros H; injection H as <-; reflexivity|]). cbn. destruct n; discriminate.
Qed.
Lemma tolower_cases : forall a, tolower a = a \/ exists n, String.get n upper = Some a.
Proof.
  intros [b0 b1 b2 b3 b4 b5 b6 b7].
  destruct b0, b1, b2, b3, b4, b5, b6, b7; try (left; reflexivity); right;
  first [exists 0; reflexivity | exists 1; reflexivity | exists 2; reflexivity | exists 3; reflexivity | exists 4; reflexivity | exists 5; reflexivity | exists 6; reflexivity | exists 7; reflexivity | exists 8; reflexivity | exists 9; reflexivity | exists 10; reflexivity | exists 11; reflexivity | exists 12; reflexivity | exists 13; reflexivity | exists 14; reflexivity | exists 15; reflexivity | exists 16; reflexivity | exists 17; reflexivity | exists 18; reflexivity | exists 19; reflexivity | exists 20; reflexivity | exists 21; reflexivity | exists 22; reflexivity | exists 23; reflexivity | exists 24; reflexivity | exists 25; reflexivity].
Qed.
Lemma same_letter_spec : forall a b, tolower a = tolower b <-> same_letter a b.
Proof.
  intros a b. split.
  - intros E. destruct (tolower_cases a) as [A|[n A]], (tolower_cases b) as [B|[m B]].
    + left. congruence.
    + right. exists m. right. split; [|exact B]. rewrite <- A, E. apply lower_upper, B.
    + right. exists n. left. split; [exact A|]. rewrite <- B, <- E. apply lower_upper, A.
    + left. pose proof (lower_upper n a A) as La. pose proof (lower_upper m b B) as Lb. rewrite E in La. rewrite <- Lb in La.
      assert (Inj : forall n m c, String.get n lower = Some c -> String.get m lower = Some c -> n = m).
      { clear. intros n m c. do 26 (destruct n as [|n]; [cbn; intros H; injection H as <-; do 26 (destruct m as [|m]; [cbn; intros H; first [reflexivity|discriminate H]|]); cbn; destruct m; discriminate|]).
        cbn. destruct n; discriminate. }
      assert (n = m) by (apply (Inj n m (tolower b)); congruence). subst m. congruence.
  - intros [->|(n & [[A B]|[A B]])]; [reflexivity| |].
    + rewrite (lower_lower n b B). apply lower_upper in A. congruence.
    + rewrite (lower_lower n a A). apply lower_upper in B. congruence.
Qed.
Lemma same_name_spec : forall s t, lower_string s = lower_string t <-> same_name s t.
Proof.
  induction s as [|a s IH]; intros [|b t]; cbn; split; intros H; try discriminate H; try (inversion H; fail); try constructor; try reflexivity.
  - injection H as E F. apply same_letter_spec; exact E.
  - injection H as E F. apply IH; exact F.
  - inversion H; subst. f_equal; [apply same_letter_spec; assumption|apply IH; assumption].
Qed.

Lemma names_distinct : forall e1 e2, lower_string (templateName e1) = lower_string (templateName e2) -> e1 = e2.
Proof. intros [s1 o1] [s2 o2]. destruct s1, o1, s2, o2; cbn; intros H; first [reflexivity|discriminate H]. Qed.
Lemma name_not_empty : forall e, lower_string (templateName e) <> ""%string.
Proof. intros [s o]. destruct s, o; cbn; discriminate. Qed.
Lemma inherited_spec : forall P e (c : context P), inherited_canCreate P e c = true <-> state_dimension P c = Some (dimension e).
Proof.
  intros P e c. unfold inherited_canCreate. destruct (state_dimension P c) as [d|]; [|split; discriminate].
  rewrite Nat.eqb_eq. split; [intros ->; reflexivity|intros H; injection H as ->; reflexivity].
Qed.
Lemma mesh_data : forall e m, has_its_data m -> order_of e = Linear -> is_a (class m) (container_for (shape_of e)) ->
  exists idx, findData m (data_for (shape_of e)) = Some idx /\ get_indices_from e m = Some idx.
Proof.
  intros e m H L I. destruct (H _ I) as [idx E]. exists idx. split; [exact E|]. unfold get_indices_from. rewrite L.
  destruct (shape_of e); exact E.
Qed.
Lemma from_mesh_shows : forall P e m (s : mechanical_state P) idx, get_indices_from e m = Some idx -> idx <> [] -> valid_indices (position P s) idx -> position P s <> [] ->
  shows (topology_from_mesh P e m s) (position P s) idx.
Proof.
  intros P e m s idx E N V Np. unfold topology_from_mesh. rewrite E.
  assert (C : content (d_indices P (set_position P (position P s) (set_indices P idx (initial_topology P)))) = idx) by (cbn [d_indices set_position set_indices]; apply assign_content).
  exact (C76_init P [SetIndices P idx; SetPosition P (position P s)] None idx eq_refl C N Np V).
Qed.
Lemma from_mesh_empty : forall P e m (s : mechanical_state P), 
  (get_indices_from e m = None \/ exists idx, get_indices_from e m = Some idx /\ (idx = [] \/ ~ valid_indices (position P s) idx)) ->
  number_of_elements P (topology_from_mesh P e m s) = 0.
Proof.
  intros P e m s [E|(idx & E & H)]; unfold topology_from_mesh; rewrite E; [reflexivity|].
  destruct (list_eq_dec (list_eq_dec Nat.eq_dec) idx []) as [->|N]; [reflexivity|].
  assert (C : content (d_indices P (set_position P (position P s) (set_indices P idx (initial_topology P)))) = idx) by (cbn [d_indices set_position set_indices]; apply assign_content).
  destruct (init_spec P None (set_position P (position P s) (set_indices P idx (initial_topology P))) eq_refl) as (_ & B & _); [rewrite C; exact N|].
  unfold number_of_elements. rewrite B; [reflexivity|]. rewrite C. cbn [positions_used position_is_set set_position d_position].
  intros [_ V]. destruct H as [H|H]; contradiction.
Qed.
Lemma find_spec : forall A f (l : list A), (forall x, In x l -> f x = false) \/ exists l1 x l2, l = l1 ++ x :: l2 /\ f x = true /\ (forall y, In y l1 -> f y = false) /\ find f l = Some x.
Proof.
  intros A f. induction l as [|a l IH]; [left; intros x []|]. cbn [find]. destruct (f a) eqn:E.
  - right. exists [], a, l. repeat split; [exact E|intros y []].
  - destruct IH as [IH|(l1 & x & l2 & -> & B & C & D)].
    + left. intros x [<-|H]; [exact E|apply IH; exact H].
    + right. exists (a :: l1), x, l2. repeat split; [exact B| |exact D]. intros y [<-|H]; [exact E|apply C; exact H].
Qed.
Lemma find_none_all : forall A f (l : list A), (forall x, In x l -> f x = false) -> find f l = None.
Proof.
  intros A f l H. destruct (find f l) eqn:E; [|reflexivity]. apply find_some in E. destruct E as [I T]. rewrite (H _ I) in T. discriminate.
Qed.

(** ** Creation *)

(** A force field asked for by name is made for the element type of that name, up to the case of the letters, and for no other: it needs a mechanical state of its dimension, and
    its description is left as it is. *)
Theorem C81_by_name : forall P e (c : context P) arg d, template arg <> ""%string ->
  (canCreate P e c arg = Some d <-> d = arg /\ same_name (template arg) (templateName e) /\ state_dimension P c = Some (dimension e)).
Proof.
  intros P e c arg d N. rewrite <- same_name_spec, <- inherited_spec. unfold canCreate. destruct (String.eqb_spec (lower_string (template arg)) (lower_string (templateName e))) as [E|E].
  - destruct (inherited_canCreate P e c); (split; [intros H|intros (A & B & C)]); try discriminate; try congruence. injection H as <-. auto.
  - destruct (String.eqb_spec (template arg) "") as [Z|_]; [contradiction|]. cbn [negb]. split; [discriminate|]. intros (_ & B & _). contradiction.
Qed.
Print Assumptions C81_by_name.

Theorem C81_by_name_unique : forall P e1 e2 (c : context P) arg d1 d2, template arg <> ""%string ->
  canCreate P e1 c arg = Some d1 -> canCreate P e2 c arg = Some d2 -> e1 = e2.
Proof.
  intros P e1 e2 c arg d1 d2 N H1 H2. apply C81_by_name in H1, H2; try exact N. destruct H1 as (_ & S1 & _), H2 as (_ & S2 & _).
  apply same_name_spec in S1, S2. apply names_distinct. congruence.
Qed.
Print Assumptions C81_by_name_unique.

(** Without a name but with a topology: if and only if the object at that path holds elements of the type. *)
Theorem C81_by_topology : forall P e (c : context P) q d, q <> ""%string ->
  (canCreate P e c (Description "" (String "@" q)) = Some d <->
   d = Description "" (String "@" q) /\ (exists o, find_path P c q = Some o /\ holds e o) /\ state_dimension P c = Some (dimension e)).
Proof.
  intros P e c q d N. rewrite <- inherited_spec. unfold canCreate. cbn [template topology_attribute lower_string].
  destruct (String.eqb_spec "" (lower_string (templateName e))) as [E|_]; [exfalso; apply (name_not_empty e); symmetry; exact E|].
  cbn [String.eqb negb substr1]. destruct (find_path P c q) as [o|]; [|split; [discriminate|intros (_ & (o & F & _) & _); discriminate]].
  destruct (usable P e o) eqn:U.
  - apply usable_spec in U. destruct (inherited_canCreate P e c); (split; [intros H|intros (A & B & C)]); try discriminate; [injection H as <-; eauto|congruence].
  - split; [discriminate|]. intros (_ & (o' & F & H) & _). injection F as <-. apply usable_spec in H. congruence.
Qed.
Print Assumptions C81_by_topology.

(** The instantiations a component has: HyperelasticForcefield (volumes) and TractionForcefield (surfaces). *)
Definition volume (e : element_type) : Prop := shape_of e = Tetrahedron \/ shape_of e = Hexahedron.

(** Then the element type is the only one among those of the component. *)
Theorem C81_by_topology_unique : forall P e1 e2 (c : context P) q d1 d2, q <> ""%string -> (volume e1 <-> volume e2) ->
  canCreate P e1 c (Description "" (String "@" q)) = Some d1 -> canCreate P e2 c (Description "" (String "@" q)) = Some d2 -> e1 = e2.
Proof.
  intros P e1 e2 c q d1 d2 N V H1 H2. apply C81_by_topology in H1, H2; try exact N.
  destruct H1 as (_ & (o & F & A) & D1), H2 as (_ & (o2 & F2 & B) & D2). rewrite F in F2. injection F2 as <-. clear F.
  rewrite D1 in D2. injection D2 as D. apply usable_spec in A, B. destruct o as [p k]. unfold usable, as_caribou, as_mesh in A, B. cbn [kind_of] in A, B.
  destruct k as [e t|m|]; [|clear N|discriminate].
  - destruct (element_type_eqb e1 e) eqn:E1; [|discriminate]. destruct (element_type_eqb e2 e) eqn:E2; [|discriminate].
    apply element_type_eqb_spec in E1, E2. congruence.
  - destruct e1 as [s1 o1], e2 as [s2 o2]. unfold volume in V. unfold mesh_is_compatible in A, B. unfold dimension in D. cbn [shape_of order_of] in *.
    destruct o1, o2; try discriminate. f_equal.
    destruct s1, s2, (class m); try discriminate; try reflexivity; exfalso.
    all: try (destruct (proj1 V (or_introl eq_refl)); discriminate); try (destruct (proj1 V (or_intror eq_refl)); discriminate);
         try (destruct (proj2 V (or_introl eq_refl)); discriminate); try (destruct (proj2 V (or_intror eq_refl)); discriminate).
Qed.
Print Assumptions C81_by_topology_unique.

(** With neither: if and only if an object of the context holds elements of the type, and the description then designates the first of them. *)
Theorem C81_by_context_partial : forall P e (c : context P) d,
  (canCreate P e c (Description "" "") = Some d <->
   state_dimension P c = Some (dimension e) /\
   exists l1 o l2, local_objects P c = l1 ++ o :: l2 /\ holds e o /\ (forall o', In o' l1 -> ~ holds e o') /\ d = Description "" (String "@" (path P o))).
Proof.
  intros P e c d. rewrite <- inherited_spec. unfold canCreate. cbn [template topology_attribute lower_string].
  destruct (String.eqb_spec "" (lower_string (templateName e))) as [E|_]; [exfalso; apply (name_not_empty e); symmetry; exact E|].
  cbn [String.eqb negb]. destruct (find_spec _ (usable P e) (local_objects P c)) as [A|(l1 & o & l2 & E & U & B & F)].
  - rewrite (find_none_all _ _ _ A). split; [discriminate|]. intros (_ & l1 & o & l2 & E & H & _). apply usable_spec in H. rewrite A in H; [discriminate|].
    rewrite E. apply in_or_app. right. left. reflexivity.
  - rewrite F. split.
    + destruct (inherited_canCreate P e c); [|discriminate]. intros H. injection H as <-. split; [reflexivity|]. exists l1, o, l2.
      split; [exact E|]. split; [apply usable_spec; exact U|]. split; [|reflexivity]. intros o' I H. apply usable_spec in H. rewrite (B _ I) in H. discriminate.
    + intros (-> & l1' & o' & l2' & E' & H' & B' & ->). do 3 f_equal. apply usable_spec in H'.
      assert (G : forall l1 o l2, local_objects P c = l1 ++ o :: l2 -> usable P e o = true -> (forall y, In y l1 -> usable P e y = false) -> find (usable P e) (local_objects P c) = Some o).
      { clear. intros l1 o l2 E U B. rewrite E. clear E. induction l1 as [|a l1 IH]; cbn; [rewrite U; reflexivity|].
        rewrite (B a (or_introl eq_refl)). apply IH. intros y I. apply B. right. exact I. }
      assert (Q : find (usable P e) (local_objects P c) = Some o'); [|congruence]. apply (G l1' o' l2' E' H'). intros y I. destruct (usable P e y) eqn:Y; [|reflexivity].
      exfalso. apply (B' y I), usable_spec, Y.
Qed.
Print Assumptions C81_by_context_partial.

(** In that case the element type need not be the only one: with two objects holding elements of two types of the same dimension, both instantiations
    accept, and the one that is made depends on the order in which they were registered. *)
Theorem C81_by_context_unique_refuted : forall P e1 e2 (c : context P) o1 o2, In o1 (local_objects P c) -> In o2 (local_objects P c) -> holds e1 o1 -> holds e2 o2 ->
  state_dimension P c = Some (dimension e1) -> dimension e1 = dimension e2 ->
  (exists d1, canCreate P e1 c (Description "" "") = Some d1) /\ (exists d2, canCreate P e2 c (Description "" "") = Some d2).
Proof.
  intros P e1 e2 c o1 o2 I1 I2 H1 H2 D1 D2.
  assert (G : forall e o, In o (local_objects P c) -> holds e o -> state_dimension P c = Some (dimension e) -> exists d, canCreate P e c (Description "" "") = Some d).
  { clear. intros e o I H D. destruct (find_spec _ (usable P e) (local_objects P c)) as [A|(l1 & x & l2 & E & U & B & F)].
    - apply usable_spec in H. rewrite (A _ I) in H. discriminate.
    - eexists. apply C81_by_context_partial. split; [exact D|]. exists l1, x, l2. split; [exact E|]. split; [apply usable_spec; exact U|]. split; [|reflexivity].
      intros o' I' H'. apply usable_spec in H'. rewrite (B _ I') in H'. discriminate. }
  split; [apply (G e1 o1)|apply (G e2 o2)]; try assumption. congruence.
Qed.
Print Assumptions C81_by_context_unique_refuted.

(** Elements of degree two are never deduced from a SOFA mesh. *)
Theorem C81_quadratic : forall P e (c : context P) arg d, order_of e = Quadratic -> template arg = ""%string -> canCreate P e c arg = Some d ->
  exists o t, kind_of P o = CaribouTopology P e t /\ (In o (local_objects P c) \/ find_path P c (substr1 (topology_attribute arg)) = Some o).
Proof.
  intros P e c [te to] d Q T H. cbn in T. subst te.
  assert (G : forall o, usable P e o = true -> exists t, kind_of P o = CaribouTopology P e t).
  { intros o U. apply usable_spec in U. destruct U as [p t|p m L I]; [exists t; reflexivity|congruence]. }
  unfold canCreate in H. cbn [template topology_attribute lower_string] in H |- *.
  destruct (String.eqb_spec "" (lower_string (templateName e))) as [E|_]; [exfalso; apply (name_not_empty e); symmetry; exact E|].
  cbn [String.eqb negb] in H. destruct (String.eqb_spec to "") as [Z|Z]; cbn [negb] in H.
  - destruct (find (usable P e) (local_objects P c)) as [o|] eqn:F; [|discriminate]. apply find_some in F. destruct F as [I U].
    destruct (G o U) as [t K]. exists o, t. auto.
  - destruct (find_path P c (substr1 to)) as [o|]; [|discriminate]. destruct (usable P e o) eqn:U; [|discriminate]. destruct (G o U) as [t K]. exists o, t. auto.
Qed.
Print Assumptions C81_quadratic.

(** ** Initialisation *)

(** With a link to an object that holds elements of the type, the force field works on the elements of that object, and on no others: those of the topology component, or those of the
    Data of the mesh at the positions of the mechanical state. *)
Theorem C81_linked_component : forall P e log (s : mechanical_state P) local p t pos idx, shows t pos idx ->
  exists f, init_forcefield P e log (Some s) local (Some (Object P p (CaribouTopology P e t))) = Initialised P f /\
    d_topology_container P f = Some (Object P p (CaribouTopology P e t)) /\ works_on f pos idx.
Proof.
  intros P e log s local p t pos idx S. eexists. split; [reflexivity|]. split; [reflexivity|]. exists t. split; [|exact S].
  cbn. unfold build_topology, as_mesh, as_caribou. cbn. rewrite (proj2 (element_type_eqb_spec e e) eq_refl). reflexivity.
Qed.
Print Assumptions C81_linked_component.

Theorem C81_linked_mesh : forall P e log (s : mechanical_state P) local p m, order_of e = Linear -> is_a (class m) (container_for (shape_of e)) -> has_its_data m ->
  exists f idx, findData m (data_for (shape_of e)) = Some idx /\
    init_forcefield P e log (Some s) local (Some (Object P p (SofaMesh P m))) = Initialised P f /\
    d_topology_container P f = Some (Object P p (SofaMesh P m)) /\
    (idx <> [] -> valid_indices (position P s) idx -> position P s <> [] -> works_on f (position P s) idx) /\
    (idx = [] \/ ~ valid_indices (position P s) idx -> works_on_nothing f).
Proof.
  intros P e log s local p m L I D. destruct (mesh_data e m D L I) as (idx & E & G). eexists. exists idx. split; [exact E|]. split; [reflexivity|]. split; [reflexivity|]. split.
  - intros N V Np. eexists. split; [reflexivity|]. apply from_mesh_shows; assumption.
  - intros H. unfold works_on_nothing, number_of_elements_of. cbn. apply from_mesh_empty. right. exists idx. auto.
Qed.
Print Assumptions C81_linked_mesh.

(** With a link to anything else but a mesh that has the Data, it works on nothing; in particular elements of degree two on a SOFA mesh. *)
Theorem C81_linked_otherwise : forall P e log (s : mechanical_state P) local o,
  (forall t, kind_of P o <> CaribouTopology P e t) -> (forall m, kind_of P o = SofaMesh P m -> order_of e = Linear -> findData m (data_for (shape_of e)) = None) ->
  exists f, init_forcefield P e log (Some s) local (Some o) = Initialised P f /\ works_on_nothing f.
Proof.
  intros P e log s local [p k] C M. eexists. split; [reflexivity|]. unfold works_on_nothing, number_of_elements_of, build_topology, as_mesh, as_caribou. cbn in *.
  destruct k as [e' t|m|]; [|apply from_mesh_empty|reflexivity].
  - destruct (element_type_eqb e e') eqn:E; [|reflexivity]. apply element_type_eqb_spec in E. subst e'. exfalso. apply (C t). reflexivity.
  - left. specialize (M m eq_refl). unfold get_indices_from. destruct (order_of e); [|reflexivity]. specialize (M eq_refl). destruct (shape_of e); exact M.
Qed.
Print Assumptions C81_linked_otherwise.

(** Without a link: the only object of the context that holds elements of the type is taken as if it had been linked ... *)
Lemma filters : forall P e (local : list (object P)),
  length (filter (usable P e) local) =
  length (filter (fun o => match as_caribou P e o with Some _ => true | None => false end) local) +
  length (filter (fun o => match as_mesh P o with Some m => mesh_is_compatible e (class m) | None => false end) local).
Proof.
  intros P e.
  assert (G : forall (f g h : object P -> bool) l, (forall o, (if f o then 1 else 0) = (if g o then 1 else 0) + (if h o then 1 else 0)) ->
    length (filter f l) = length (filter g l) + length (filter h l)).
  { intros f g h l H. induction l as [|o l IH]; [reflexivity|]. cbn [filter]. specialize (H o). destruct (f o), (g o), (h o); cbn [length]; lia. }
  intros local. apply G. intros [p [e' t|m|]]; unfold usable, as_caribou, as_mesh; cbn [kind_of].
  - destruct (element_type_eqb e e'); reflexivity.
  - destruct (mesh_is_compatible e (class m)); reflexivity.
  - reflexivity.
Qed.
Lemma filter_none : forall A f (l : list A), (forall x, In x l -> f x = false) -> filter f l = [].
Proof. intros A f. induction l as [|a l IH]; intros H; [reflexivity|]. cbn. rewrite (H a (or_introl eq_refl)). apply IH. intros x I. apply H. right. exact I. Qed.
Lemma caribou_usable : forall P e (o : object P), (match as_caribou P e o with Some _ => true | None => false end) = true -> usable P e o = true.
Proof. intros P e o H. unfold usable. destruct (as_caribou P e o); [reflexivity|discriminate]. Qed.
Lemma sofa_usable : forall P e (o : object P), (match as_mesh P o with Some m => mesh_is_compatible e (class m) | None => false end) = true -> usable P e o = true.
Proof. intros P e o H. unfold usable. destruct (as_caribou P e o); [reflexivity|]. exact H. Qed.
Lemma not_true : forall b, (b = true -> False) -> b = false. Proof. intros []; [intros H; destruct (H eq_refl)|reflexivity]. Qed.

Theorem C81_found_partial : forall P e log (s : mechanical_state P) l1 o l2, holds e o -> (forall o', In o' (l1 ++ l2) -> ~ holds e o') ->
  init_forcefield P e log (Some s) (l1 ++ o :: l2) None = init_forcefield P e log (Some s) (l1 ++ o :: l2) (Some o).
Proof.
  intros P e log s l1 o l2 H N. cbn [init_forcefield].
  assert (B : forall f : object P -> bool, (forall x, f x = true -> usable P e x = true) -> filter f (l1 ++ o :: l2) = if f o then [o] else []).
  { intros f K. assert (Z : forall l, (forall x, In x l -> In x (l1 ++ l2)) -> filter f l = []).
    { intros l I. apply filter_none. intros x Hx. apply not_true. intros T. apply (N x (I x Hx)), usable_spec, K, T. }
    rewrite filter_app. cbn [filter]. rewrite (Z l1), (Z l2); [reflexivity| |]; intros x Hx; apply in_or_app; auto. }
  rewrite (B _ (caribou_usable P e)), (B _ (sofa_usable P e)).
  apply usable_spec in H. unfold usable in H. destruct o as [p [e' t|m|]]; unfold as_caribou, as_mesh in *; cbn [kind_of] in *; [| |discriminate].
  - destruct (element_type_eqb e e'); [reflexivity|discriminate].
  - rewrite H. reflexivity.
Qed.
Print Assumptions C81_found_partial.

(** ... and with none it works on nothing. *)
Theorem C81_not_found : forall P e log (s : mechanical_state P) local, (forall o, In o local -> ~ holds e o) ->
  init_forcefield P e log (Some s) local None = Initialised P (Forcefield P None None).
Proof.
  intros P e log s local N. cbn [init_forcefield].
  assert (B : forall f : object P -> bool, (forall x, f x = true -> usable P e x = true) -> filter f local = []).
  { intros f K. apply filter_none. intros x Hx. apply not_true. intros T. apply (N x Hx), usable_spec, K, T. }
  rewrite (B _ (caribou_usable P e)), (B _ (sofa_usable P e)). reflexivity.
Qed.
Print Assumptions C81_not_found.

(** With several of them it works on nothing, and the component crashes instead if its messages are printed. *)
Theorem C81_several_refuted : forall P e (s : mechanical_state P) l1 o1 l2 o2 l3, holds e o1 -> holds e o2 ->
  init_forcefield P e false (Some s) (l1 ++ o1 :: l2 ++ o2 :: l3) None = Initialised P (Forcefield P None None) /\
  init_forcefield P e true (Some s) (l1 ++ o1 :: l2 ++ o2 :: l3) None = Crash P.
Proof.
  intros P e s l1 o1 l2 o2 l3 H1 H2.
  assert (L : 1 < length (filter (usable P e) (l1 ++ o1 :: l2 ++ o2 :: l3))).
  { apply usable_spec in H1, H2. rewrite filter_app. cbn [filter]. rewrite H1, filter_app. cbn [filter]. rewrite H2. rewrite app_length. cbn [length]. rewrite app_length. cbn [length]. lia. }
  rewrite filters in L. cbn [init_forcefield].
  set (c := filter (fun o => match as_caribou P e o with Some _ => true | None => false end) _) in *.
  set (m := filter (fun o => match as_mesh P o with Some m => mesh_is_compatible e (class m) | None => false end) _) in *. clearbody c m.
  apply Nat.ltb_lt in L. destruct c, m; try discriminate L; rewrite L; split; reflexivity.
Qed.
Print Assumptions C81_several_refuted.

(** Consequently the same scene gives two results: without the name of the element type the force field works on the first topology, with it on nothing. *)
Theorem C81_name_changes_result_refuted : forall P e (c : context P) name (s : mechanical_state P) l1 o1 l2 o2 l3,
  local_objects P c = l1 ++ o1 :: l2 ++ o2 :: l3 -> holds e o1 -> holds e o2 -> (forall o, In o l1 -> ~ holds e o) ->
  find_path P c (path P o1) = Some o1 -> state_dimension P c = Some (dimension e) -> same_name name (templateName e) ->
  (exists d, canCreate P e c (Description "" "") = Some d /\
     init_forcefield P e false (Some s) (local_objects P c) (find_path P c (substr1 (topology_attribute d))) =
     init_forcefield P e false (Some s) (local_objects P c) (Some o1)) /\
  (exists d, canCreate P e c (Description name "") = Some d /\ topology_attribute d = ""%string /\
     init_forcefield P e false (Some s) (local_objects P c) None = Initialised P (Forcefield P None None)).
Proof.
  intros P e c name s l1 o1 l2 o2 l3 E H1 H2 N F D SN. split.
  - exists (Description "" (String "@" (path P o1))). split.
    + apply C81_by_context_partial. split; [exact D|]. exists l1, o1, (l2 ++ o2 :: l3). auto.
    + cbn [topology_attribute substr1]. rewrite F. reflexivity.
  - exists (Description name ""). split; [|split; [reflexivity|]].
    + apply C81_by_name; [|auto]. cbn. intros ->. apply same_name_spec in SN. apply (name_not_empty e). symmetry. exact SN.
    + rewrite E. apply C81_several_refuted; assumption.
Qed.
Print Assumptions C81_name_changes_result_refuted.

(** Created without a name and initialised with the link its description then has, a force field is linked to an object that holds elements of its type. *)
Theorem C81_created_then_initialised : forall P e (c : context P) arg d log (s : mechanical_state P),
  (forall o, In o (local_objects P c) -> find_path P c (path P o) = Some o) ->
  template arg = ""%string -> canCreate P e c arg = Some d ->
  exists o, find_path P c (substr1 (topology_attribute d)) = Some o /\ holds e o /\
    (forall f, init_forcefield P e log (Some s) (local_objects P c) (Some o) = Initialised P f ->
       d_topology_container P f = Some o /\ p_topology P f <> None).
Proof.
  intros P e c [te to] d log s F T H. cbn in T. subst te.
  assert (G : forall o, holds e o -> forall f, init_forcefield P e log (Some s) (local_objects P c) (Some o) = Initialised P f ->
       d_topology_container P f = Some o /\ p_topology P f <> None).
  { intros o Ho f E. cbn in E. injection E as <-. split; [reflexivity|]. cbn. destruct Ho as [p t|p m L I]; [|discriminate].
    unfold build_topology, as_mesh, as_caribou. cbn. rewrite (proj2 (element_type_eqb_spec e e) eq_refl). discriminate. }
  destruct to as [|x q].
  - apply C81_by_context_partial in H. destruct H as (_ & l1 & o & l2 & E & Ho & _ & ->). exists o. cbn [topology_attribute substr1].
    split; [apply F; rewrite E; apply in_or_app; right; left; reflexivity|]. split; [exact Ho|]. apply G, Ho.
  - unfold canCreate in H. cbn [template topology_attribute lower_string] in H.
    destruct (String.eqb_spec "" (lower_string (templateName e))) as [E|_]; [exfalso; apply (name_not_empty e); symmetry; exact E|].
    cbn [String.eqb negb substr1] in H. destruct (find_path P c q) as [o|] eqn:Q; [|discriminate]. destruct (usable P e o) eqn:U; [|discriminate].
    destruct (inherited_canCreate P e c); [|discriminate]. injection H as <-. exists o. cbn [topology_attribute substr1]. split; [exact Q|]. apply usable_spec in U. split; [exact U|]. apply G, U.
Qed.
Print Assumptions C81_created_then_initialised.

(** ** The reference configuration *)

Lemma forall2_nth : forall P (pos : list P) l pts, Forall2 (fun i p => nth_error pos i = Some p) l pts -> forall k i, nth_error l k = Some i -> nth_error pts k = nth_error pos i.
Proof.
  intros P pos l pts F. induction F; intros k j H0; [destruct k; discriminate|]. destruct k; cbn in *; [injection H0 as <-; congruence|apply IHF, H0].
Qed.

(** On the same indices and the same mechanical state, a topology component (whose positions are not set) puts the nodes at the rest positions, a mesh at the current ones: wherever the state
    is not at rest when the simulation is initialised, the reference configurations of the two force fields differ. *)
Theorem C81_reference_refuted : forall P e log (s : mechanical_state P) local p q m idx k l i,
  order_of e = Linear -> is_a (class m) (container_for (shape_of e)) -> findData m (data_for (shape_of e)) = Some idx ->
  valid_indices (position P s) idx -> valid_indices (rest_position P s) idx -> nth_error idx k = Some l -> In i l -> nth_error (position P s) i <> nth_error (rest_position P s) i ->
  exists f g tf tg x y,
    init_forcefield P e log (Some s) local (Some (Object P p (SofaMesh P m))) = Initialised P f /\
    init_forcefield P e log (Some s) local (Some (Object P q (CaribouTopology P e (init P (Some (rest_position P s)) (set_indices P idx (initial_topology P)))))) = Initialised P g /\
    p_topology P f = Some tf /\ p_topology P g = Some tg /\ element_indices P tf k = Value l /\ element_indices P tg k = Value l /\
    element P tf k = Value x /\ element P tg k = Value y /\ x <> y /\
    Forall2 (fun i z => nth_error (position P s) i = Some z) l x /\ Forall2 (fun i z => nth_error (rest_position P s) i = Some z) l y.
Proof.
  intros P e log s local p q m idx k l i L I D V W K Il Ne.
  assert (Ni : idx <> []) by (intros ->; destruct k; discriminate).
  assert (Il' : In l idx) by (eapply nth_error_In; exact K).
  assert (Np : position P s <> []) by (intros Z; specialize (V l i Il' Il); rewrite Z in V; cbn in V; lia).
  assert (Nr : rest_position P s <> []) by (intros Z; specialize (W l i Il' Il); rewrite Z in W; cbn in W; lia).
  assert (G : get_indices_from e m = Some idx) by (unfold get_indices_from; rewrite L; destruct (shape_of e); exact D).
  pose proof (from_mesh_shows P e m s idx G Ni V Np) as [_ Sf].
  assert (C : content (d_indices P (set_indices P idx (initial_topology P))) = idx) by (cbn [d_indices set_indices]; apply assign_content).
  pose proof (C76_init P [SetIndices P idx] (Some (rest_position P s)) idx eq_refl C Ni Nr W) as [_ Sg].
  destruct (Sf k l K) as (A1 & x & A2 & A3). destruct (Sg k l K) as (B1 & y & B2 & B3).
  eexists. eexists. exists (topology_from_mesh P e m s), (init P (Some (rest_position P s)) (set_indices P idx (initial_topology P))), x, y.
  split; [reflexivity|]. split; [reflexivity|]. split; [reflexivity|]. split.
  { cbn [p_topology]. unfold build_topology, as_mesh, as_caribou. cbn [kind_of]. rewrite (proj2 (element_type_eqb_spec e e) eq_refl). reflexivity. }
  split; [exact A1|]. split; [exact B1|]. split; [exact A2|]. split; [exact B2|]. split; [|split; [exact A3|exact B3]].
  intros <-. apply In_nth_error in Il. destruct Il as [j Hj]. apply Ne. rewrite <- (forall2_nth P _ _ _ A3 j i Hj). apply (forall2_nth P _ _ _ B3 j i Hj).
Qed.
Print Assumptions C81_reference_refuted.

(** ** The material and the mechanical state *)

(** The material is the linked one, otherwise the only one of the context; the rest of the initialisation is that of the force field. *)
Theorem C81_material : forall P (M : Type) e log (s : mechanical_state P) local link (mat : option M) mats f,
  init_forcefield P e log (Some s) local link = Initialised P f ->
  exists r, init_hyperelastic P e log (Some s) local link mat mats = Some (f, r) /\
    (forall x, mat = Some x -> r = Some x) /\ (mat = None -> forall x, r = Some x <-> mats = [x]).
Proof.
  intros P M e log s local link mat mats f H. unfold init_hyperelastic. rewrite H. eexists. split; [reflexivity|]. split; [intros x ->; reflexivity|].
  intros -> x. unfold find_material. destruct mats as [|a [|b r]]; split; intros E; try discriminate; injection E as <-; reflexivity.
Qed.
Print Assumptions C81_material.

(** Without a mechanical state the force field keeps its link but works on nothing, and a hyperelastic one crashes, in every scene. *)
Theorem C81_no_state_refuted : forall P (M : Type) e log local link (mat : option M) mats,
  (exists f, init_forcefield P e log None local link = Initialised P f /\ works_on_nothing f /\ d_topology_container P f = link) /\
  init_hyperelastic P e log None local link mat mats = None.
Proof. intros. split; [eexists; split; [reflexivity|split; reflexivity]|reflexivity]. Qed.
Print Assumptions C81_no_state_refuted.

(** ** Examples *)

Definition tet_mesh : mesh := Mesh TetrahedronSet (fun d => match d with Tetrahedra => Some [[0;1;2;3]; [1;2;3;4]] | Triangles => Some [[0;1;2]] | _ => None end).
Definition hex_mesh : mesh := Mesh HexahedronSet (fun d => match d with Hexahedra => Some [[0;1;2;3;4;5;6;7]] | Quads => Some [[0;1;2;3]] | _ => None end).
Definition linear_tet := ElementType Tetrahedron Linear.
Definition objs : list (object nat) := [Object nat "/state" (OtherObject nat); Object nat "/tets" (SofaMesh nat tet_mesh); Object nat "/hexas" (SofaMesh nat hex_mesh)].
Definition scene : context nat := Context nat objs (fun q => find (fun o => String.eqb (path nat o) q) objs) (Some 3).

Example tet_mesh_has_its_data : has_its_data tet_mesh /\ has_its_data hex_mesh.
Proof.
  split; intros s H; destruct s; cbn in *; try (eexists; reflexivity); exfalso;
  repeat match goal with H : is_a _ _ |- _ => inversion H; clear H; subst end.
Qed.
Example scene_deduced : canCreate nat linear_tet scene (Description "" "") = Some (Description "" "@/tets") /\
  canCreate nat (ElementType Hexahedron Linear) scene (Description "" "") = Some (Description "" "@/hexas") /\
  canCreate nat linear_tet scene (Description "tetraHEDRON" "") = Some (Description "tetraHEDRON" "") /\
  canCreate nat (ElementType Tetrahedron Quadratic) scene (Description "" "@/tets") = None /\
  canCreate nat (ElementType Triangle_3D Linear) scene (Description "" "@/tets") = Some (Description "" "@/tets") /\
  canCreate nat (ElementType Triangle_2D Linear) scene (Description "" "@/tets") = None.
Proof. vm_compute. repeat split; reflexivity. Qed.
Example scene_initialised : exists f,
  init_forcefield nat linear_tet true (Some (MechanicalState nat [10;11;12;13;14] [20;21;22;23;24])) objs None = Initialised nat f /\
  works_on f [10;11;12;13;14] [[0;1;2;3]; [1;2;3;4]].
Proof.
  eexists. split; [vm_compute; reflexivity|]. eexists. split; [reflexivity|]. split; [reflexivity|].
  intros k l H. destruct k as [|[|k]]; cbn in H; [| |destruct k; discriminate]; injection H as <-; (split; [reflexivity|]); eexists; (split; [reflexivity|repeat constructor]).
Qed.
Example paths_found : forall o, In o objs -> find_path nat scene (path nat o) = Some o.
Proof. intros o [<-|[<-|[<-|[]]]]; reflexivity. Qed.
