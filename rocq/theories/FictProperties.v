(** Properties of the fictitious grid: C35 (neighbours), C36 (regions), C37 (outside and inside). *)

From Coq Require Import ZArith Reals Lra Lia Relations.
From Coq Require Import List Arith Bool.
From Verif Require Import GridModel GridSpec GridProofs GridGeoModel GridGeoSpec GridGeoProofs FictModel FictSpec FictProofs FictProofs2
  FictProofs3 FictProofs4 FictProofs5 FictProofs6.
Import ListNotations.
Open Scope nat_scope.

(** ** C35 *)

(** The trees made by the subdivision are in the scope of the theorems below, whatever the test of the sub-cells. *)
Theorem C35_subdivision_is_valid : forall g classify n, valid_grid g -> (length g = 2 \/ length g = 3) ->
  valid_cells g (subdivide_intersected_cells g classify n).
Proof.
  intros g classify n Hg HD. split; [exact Hg|]. split; [exact HD|]. unfold subdivide_intersected_cells. split.
  - rewrite map_length, seq_length. apply Z2Nat.id.
    clear -Hg. destruct Hg as [_ F]. unfold number_of_cells. induction F as [|a g [Ha _] F IH]; simpl; [lia|]. apply Z.mul_nonneg_nonneg; lia.
  - apply Forall_forall. intros t Ht. apply in_map_iff in Ht. destruct Ht as (c & <- & _). apply subdivide_full. exact HD.
Qed.
Print Assumptions C35_subdivision_is_valid.

(** The search never leaves the arrays and answers exactly the leaves that face the queried one, each once. *)
Theorem C35_neighbours_exact : forall (A : Type) g (cells : list (tree A)) p axis dir,
  valid_cells g cells -> a_leaf cells p -> axis < length g -> (dir = 1 \/ dir = -1)%Z ->
  exists l, get_neighbors (subdivisions g) cells p axis dir = Some l /\ NoDup l /\
    forall q, In q l <-> a_leaf cells q /\ face_to_face (length g) axis dir (element g p) (element g q).
Proof.
  intros A g cells p axis dir (Hg & HD & Hc & Hf) (a & Lp) Ha Hd.
  exact (neighbors_exact g Hg HD A cells Hc Hf axis Ha dir Hd p a Lp).
Qed.
Print Assumptions C35_neighbours_exact.

Theorem C35_symmetric : forall (A : Type) g (cells : list (tree A)) p q axis dir l m,
  valid_cells g cells -> a_leaf cells p -> a_leaf cells q -> axis < length g -> (dir = 1 \/ dir = -1)%Z ->
  get_neighbors (subdivisions g) cells p axis dir = Some l -> get_neighbors (subdivisions g) cells q axis (- dir) = Some m ->
  (In q l <-> In p m).
Proof.
  intros A g cells p q axis dir l m Hv Lp Lq Ha Hd E1 E2.
  destruct (C35_neighbours_exact A g cells p axis dir Hv Lp Ha Hd) as (l' & E1' & _ & H1).
  destruct (C35_neighbours_exact A g cells q axis (- dir) Hv Lq Ha) as (m' & E2' & _ & H2); [destruct Hd as [-> | ->]; auto|].
  rewrite E1 in E1'. inversion E1'; subst l'. rewrite E2 in E2'. inversion E2'; subst m'.
  rewrite H1, H2. rewrite <- (face_to_face_sym (length g) axis dir (element g p) (element g q) Hd). tauto.
Qed.
Print Assumptions C35_symmetric.

(** There is no neighbour exactly on the border of the grid. *)
Theorem C35_none_iff_border : forall (A : Type) g (cells : list (tree A)) p axis dir,
  valid_cells g cells -> a_leaf cells p -> axis < length g -> (dir = 1 \/ dir = -1)%Z ->
  get_neighbors (subdivisions g) cells p axis dir = Some [] <-> on_border g axis dir p.
Proof.
  intros A g cells p axis dir (Hg & HD & Hc & Hf) (a & Lp) Ha Hd.
  exact (neighbors_border g Hg HD A cells Hc Hf axis dir p a Lp Ha Hd).
Qed.
Print Assumptions C35_none_iff_border.

(** Two leaves whose elements have a common interior point are the same. *)
Theorem C35_leaves_do_not_overlap : forall (A : Type) g (cells : list (tree A)) p q,
  valid_cells g cells -> a_leaf cells p -> a_leaf cells q ->
  (forall a, (a < length g)%nat -> lower (element g p) a < upper (element g q) a /\ lower (element g q) a < upper (element g p) a)%R -> p = q.
Proof.
  intros A g cells p q (Hg & HD & Hc & Hf) (a & Lp) (b & Lq) H.
  apply (leaves_disjoint g Hg HD A cells Hc Hf p q a b Lp Lq). intros x Hx.
  apply (overlap_boxes g Hg HD p q x); auto; eapply leaf_okp; eassumption.
Qed.
Print Assumptions C35_leaves_do_not_overlap.

(** A grid of two cells side by side; the left one is divided, and its second sub-cell is divided again. *)
Definition example_grid : grid := [Axis 0 2 2; Axis 0 1 1].
Definition example_cells : list (tree unit) :=
  [Node [Leaf tt; Node [Leaf tt; Leaf tt; Leaf tt; Leaf tt]; Leaf tt; Leaf tt]; Leaf tt].
Lemma example_valid : valid_cells example_grid example_cells.
Proof.
  split; [|split; [left; reflexivity|split; [reflexivity|]]].
  - split; [simpl; lia|]. repeat constructor; simpl; try lia; lra.
  - repeat constructor.
Qed.
(** From the right cell to the left: three leaves of two sizes; from one of them to the right. *)
Example C35_example :
  get_neighbors (subdivisions example_grid) example_cells (1, []) 0 (-1) = Some [(0, [3]); (0, [3; 1]); (0, [1; 1])] /\
  get_neighbors (subdivisions example_grid) example_cells (0, [3; 1]) 0 1 = Some [(1, [])] /\
  get_neighbors (subdivisions example_grid) example_cells (0, [3; 1]) 1 1 = Some [(0, [3])] /\
  get_neighbors (subdivisions example_grid) example_cells (0, [0]) 0 (-1) = Some [].
Proof. repeat split. Qed.

(** ** C36 *)

Theorem C36_regions : forall (A : Type) g (cells : list (tree A)) (type : ptr -> cell_type), valid_cells g cells ->
  exists st, create_regions (subdivisions g) cells type = Some (Ok st) /\
    (* every leaf is in exactly one region, which bears its number and its type *)
    (forall p, a_leaf cells p -> exists i ty l, nth_error (regions st) i = Some (ty, l) /\ In p l /\ region_id st p = Z.of_nat i /\ ty = type p) /\
    (forall i j r s p, nth_error (regions st) i = Some r -> nth_error (regions st) j = Some s -> In p (snd r) -> In p (snd s) -> i = j) /\
    (* a region holds leaves only, each once, and at least one *)
    (forall i ty l, nth_error (regions st) i = Some (ty, l) -> l <> [] /\ NoDup l /\ forall p, In p l -> a_leaf cells p) /\
    (* the regions are the connected components *)
    (forall p q, a_leaf cells p -> a_leaf cells q -> (region_id st p = region_id st q <-> same_region g cells type p q)) /\
    (* the mark of the boundary cells of a region *)
    (forall p, a_leaf cells p -> (boundary_of_region st p = true <-> at_border g p \/ exists q, neighbours g cells p q /\ type q <> type p)).
Proof.
  intros A g cells type Hv. destruct (create_regions_spec A g cells Hv type) as (st & E & O & N).
  exists st. split; [exact E|]. assert (L : labelled A g cells type st) by (split; assumption).
  split; [|split; [|split; [|split]]].
  - intros p Lp. destruct (labelled_region A g cells Hv type st L p Lp) as (i & ty & l & H1 & H2 & H3 & H4 & _).
    exists i, ty, l. auto.
  - exact (labelled_unique A g cells type st L).
  - intros i ty l Ei. destruct (o_reg _ _ _ st O i ty l Ei) as (H1 & c & H2 & H3 & _ & H4).
    split; [intros ->; destruct H2|]. split; [exact H1|]. intros p Hp. apply in_all_leaves.
    apply H4 in Hp. eapply conn_leaf; [apply (nb_sym A g cells Hv)|exact H3|exact Hp].
  - intros p q Lp Lq. apply in_all_leaves in Lp as Ip. apply in_all_leaves in Lq as Iq.
    rewrite <- (conn_iff A g cells Hv type). apply (outer_conn _ _ _ (nb_sym A g cells Hv)); auto.
    intros y Hy. apply N. apply in_all_leaves. exact Hy.
  - intros p Lp. rewrite (o_b _ _ _ st O p); [|apply in_all_leaves; exact Lp].
    destruct (Z.eqb_spec (region_id st p) (-1)) as [C|_]; [exfalso; exact (N p Lp C)|]. apply (flag_iff A g cells Hv type p Lp).
Qed.
Print Assumptions C36_regions.

(** Leaves of example_cells: the leaf (0, [3]) and the small leaves are Boundary, the others Undefined: two undefined regions. *)
Definition example_type (p : ptr) : cell_type :=
  if ptr_eqb p (0, [3]) || ptr_eqb p (0, [0; 1]) || ptr_eqb p (0, [1; 1]) || ptr_eqb p (0, [2; 1]) || ptr_eqb p (0, [3; 1]) then Boundary else Undefined.
Example C36_example :
  match create_regions (subdivisions example_grid) example_cells example_type with
  | Some (Ok st) => regions st = [(Undefined, [(0, [0]); (0, [2])]); (Boundary, [(0, [0; 1]); (0, [1; 1]); (0, [2; 1]); (0, [3; 1]); (0, [3])]); (Undefined, [(1, [])])]
  | _ => False
  end.
Proof. vm_compute. reflexivity. Qed.

(** ** C37 *)

(** In three dimensions: what is not Undefined stays; an undefined leaf becomes Outside exactly when a path of undefined leaves
    joins it to the border of the grid, and Inside otherwise.  The types of the regions follow. *)
Theorem C37_outside_iff_border_partial : forall (A : Type) g (cells : list (tree A)) (type : ptr -> cell_type) st,
  valid_cells g cells -> length g = 3 -> create_regions (subdivisions g) cells type = Some (Ok st) ->
  let s := tag_inside (tag_outside (subdivisions g) (regions st, type)) in
  (forall p, a_leaf cells p ->
     (type p <> Undefined -> snd s p = type p) /\
     (type p = Undefined ->
        snd s p = Outside /\ (exists q, same_region g cells type p q /\ at_border g q) \/
        snd s p = Inside /\ ~ (exists q, same_region g cells type p q /\ at_border g q))) /\
  map snd (fst s) = map snd (regions st) /\
  (forall ty l p, In (ty, l) (fst s) -> In p l -> snd s p = ty).
Proof.
  intros A g cells type st Hv D3 E s.
  destruct (create_regions_spec A g cells Hv type) as (st' & E' & L). rewrite E in E'. inversion E'; subst st'. clear E'.
  change (outer (faces_of (subdivisions g) cells) type (all_leaves cells) st /\ (forall y, a_leaf cells y -> region_id st y <> (-1)%Z))
    with (labelled A g cells type st) in L.
  destruct (tagging_spec A g cells Hv type st L) as [T1 T2]. fold s in T1, T2. pose proof Hv as (Hg & HD & Hc & Hf).
  (* the region of a leaf *)
  assert (Reg : forall p i r, a_leaf cells p -> nth_error (regions st) i = Some r -> In p (snd r) ->
      fst r = type p /\ (is_out g r = true <-> type p = Undefined /\ exists q, same_region g cells type p q /\ at_border g q)).
  { intros p i r Lp Ei I.
    destruct (labelled_region A g cells Hv type st L p Lp) as (j & ty & l & Ej & Ij & _ & Et & Cl).
    assert (i = j) by (eapply (labelled_unique A g cells type st L); eassumption). subst j. rewrite Ei in Ej. inversion Ej; subst r.
    split; [exact Et|]. unfold is_out. cbn [fst snd]. rewrite andb_true_iff, existsb_exists. subst ty.
    destruct (type_eqb_spec (type p) Undefined) as [U|U]; [|split; intros [? _]; [discriminate|contradiction]].
    assert (Hb : forall q, In q l -> touches_border (subdivisions g) q = true <-> at_border g q).
    { intros q Iq. apply (touches_border_spec g Hg HD A cells q); [|exact D3].
      destruct L as [O _]. destruct (o_reg _ _ _ st O i (type p) l Ei) as (_ & c & _ & H3 & _ & H4).
      apply H4 in Iq. apply conn_leaf in Iq; [|apply (nb_sym A g cells Hv)|exact H3].
      apply in_all_leaves in Iq. destruct Iq as (a & La). eapply leaf_okp; eassumption. }
    split.
    - intros [_ (q & Iq & Bq)]. split; [exact U|]. exists q. split; [apply Cl; exact Iq|apply Hb; assumption].
    - intros [_ (q & Cq & Bq)]. split; [reflexivity|]. apply Cl in Cq. exists q. split; [exact Cq|apply Hb; assumption]. }
  split; [|split].
  - intros p Lp. destruct (T2 p Lp) as (i & r & Ei & I & Es). destruct (Reg p i r Lp Ei I) as [R1 R2]. rewrite Es. unfold is_undefined. rewrite R1.
    split.
    + intros N. destruct (is_out g r) eqn:Eo; [exfalso; destruct (proj1 R2 eq_refl); contradiction|].
      destruct (type_eqb_spec (type p) Undefined); [contradiction|reflexivity].
    + intros U. destruct (is_out g r) eqn:Eo; [left; split; [reflexivity|apply (proj1 R2 eq_refl)]|]. rewrite U. right. split; [reflexivity|].
      intros B. destruct R2 as [_ R2]. discriminate (R2 (conj U B)).
  - rewrite T1, map_map. apply map_ext. intros r. rewrite !snd_retagged. reflexivity.
  - intros ty l p I Ip. rewrite T1 in I. apply in_map_iff in I. destruct I as (r & Er & Ir).
    assert (Hl : l = snd r) by (transitivity (snd (ty, l)); [reflexivity|rewrite <- Er, !snd_retagged; reflexivity]).
    assert (Hty : ty = fst (retagged is_undefined Inside (retagged (is_out g) Outside r))) by (rewrite Er; reflexivity).
    subst l. apply In_nth_error in Ir. destruct Ir as (i & Ei).
    assert (Lp : a_leaf cells p).
    { destruct L as [O _]. destruct r as [ty0 l0]. destruct (o_reg _ _ _ st O i ty0 l0 Ei) as (_ & c & _ & H3 & _ & H4).
      cbn [snd] in Ip. apply H4 in Ip. apply conn_leaf in Ip; [|apply (nb_sym A g cells Hv)|exact H3]. apply in_all_leaves. exact Ip. }
    destruct (T2 p Lp) as (j & r' & Ej & I' & Es).
    assert (i = j) by (eapply (labelled_unique A g cells type st L); eassumption). subst j. rewrite Ei in Ej. inversion Ej; subst r'.
    destruct (Reg p i r Lp Ei Ip) as [R1 _]. rewrite Es, Hty. unfold retagged. destruct (is_out g r); [reflexivity|].
    unfold is_undefined. rewrite R1. destruct (type_eqb (type p) Undefined); [reflexivity|]. symmetry. exact R1.
Qed.
Print Assumptions C37_outside_iff_border_partial.

(** In two dimensions the bits of the third axis are never cleared, so that every undefined region counts as touching the
    border: an undefined leaf always ends up Outside, even one enclosed by boundary leaves. *)
Theorem C37_two_dimensions_refuted : forall (A : Type) g (cells : list (tree A)) (type : ptr -> cell_type) st p,
  valid_cells g cells -> length g = 2 -> create_regions (subdivisions g) cells type = Some (Ok st) ->
  a_leaf cells p -> type p = Undefined -> snd (tag_inside (tag_outside (subdivisions g) (regions st, type))) p = Outside.
Proof.
  intros A g cells type st p Hv D2 E Lp U.
  destruct (create_regions_spec A g cells Hv type) as (st' & E' & L). rewrite E in E'. inversion E'; subst st'. clear E'.
  change (outer (faces_of (subdivisions g) cells) type (all_leaves cells) st /\ (forall y, a_leaf cells y -> region_id st y <> (-1)%Z))
    with (labelled A g cells type st) in L. pose proof Hv as (Hg & HD & Hc & Hf).
  destruct (tagging_spec A g cells Hv type st L) as [_ T2]. destruct (T2 p Lp) as (i & r & Ei & I & ->).
  destruct (labelled_region A g cells Hv type st L p Lp) as (j & ty & l & Ej & Ij & _ & Et & Cl).
  assert (i = j) by (eapply (labelled_unique A g cells type st L); eassumption). subst j. rewrite Ei in Ej. inversion Ej; subst r.
  assert (is_out g (ty, l) = true) as ->; [|reflexivity]. unfold is_out. cbn [fst snd]. rewrite Et, U. cbn [type_eqb andb].
  apply existsb_exists. exists p. split; [exact I|]. destruct Lp as (a & La).
  apply (touches_border_2D g HD A cells p); [|exact D2]. apply (leaf_okp g A cells Hc Hf p a La).
Qed.
Print Assumptions C37_two_dimensions_refuted.

(** Nine cells; the middle one is enclosed by four boundary cells and ends up Outside. *)
Example C37_two_dimensions_example : let g := [Axis 0 3 3; Axis 0 3 3] in
  let cells := repeat (Leaf tt) 9 in
  let type := fun p : ptr => if existsb (Nat.eqb (fst p)) [1; 3; 5; 7] then Boundary else Undefined in
  valid_cells g cells /\
  match create_regions (subdivisions g) cells type with
  | Some (Ok st) => In (Undefined, [(4, [])]) (regions st) /\ snd (tag_inside (tag_outside (subdivisions g) (regions st, type))) (4, []) = Outside
  | _ => False
  end.
Proof.
  split.
  - split; [|split; [left; reflexivity|split; [reflexivity|]]].
    + split; [simpl; lia|]. repeat constructor; simpl; try lia; lra.
    + apply Forall_forall. intros t Ht. apply repeat_spec in Ht. subst t. constructor.
  - vm_compute. auto 10.
Qed.

(** What the code reaches in two dimensions nevertheless agrees: the iso-surface leaves nothing Undefined, and without
    iso-surface every cell stays Undefined, so that all are connected to the border. *)
Theorem C37_two_dimensions_reachable : forall g iso n p,
  valid_grid g -> length g = 2 ->
  let cells := subdivide_intersected_cells g (fun _ => classify_iso 2 iso) n in
  a_leaf cells p -> initial_type cells p <> Undefined.
Proof.
  intros g iso n p Hg D2 cells (a & t & Et & Es). unfold initial_type, leaf_data. rewrite Et, Es.
  unfold cells, subdivide_intersected_cells in Et. rewrite nth_error_map in Et.
  destruct (nth_error (seq 0 (Z.to_nat (number_of_cells (subdivisions g)))) (fst p)) as [c|]; [|discriminate].
  cbn [option_map] in Et. inversion Et as [Et']. clear Et. rewrite D2 in Et'.
  rewrite <- Et' in Es. apply (subdivide_leaf 2) in Es; [|auto]. destruct a as [ty w]. destruct Es as [E _]. cbn [fst] in E. rewrite E.
  unfold classify_iso. destruct (Nat.eqb _ _); [discriminate|]. destruct (Nat.eqb _ _); discriminate.
Qed.
Print Assumptions C37_two_dimensions_reachable.

(** A 3D grid of 3 x 3 x 3 cells whose middle cell is enclosed by boundary cells on its six sides. *)
Definition example_grid3 : grid := [Axis 0 3 3; Axis 0 3 3; Axis 0 3 3].
Definition example_cells3 : list (tree unit) := repeat (Leaf tt) 27.
Definition example_type3 (p : ptr) : cell_type :=
  if existsb (Nat.eqb (fst p)) [4; 10; 12; 14; 16; 22] then Boundary else Undefined.
Example C37_example :
  valid_cells example_grid3 example_cells3 /\
  match create_regions (subdivisions example_grid3) example_cells3 example_type3 with
  | Some (Ok st) =>
      let s := tag_inside (tag_outside (subdivisions example_grid3) (regions st, example_type3)) in
      snd s (13, []) = Inside /\ snd s (0, []) = Outside /\ snd s (4, []) = Boundary
  | _ => False
  end.
Proof.
  split.
  - split; [|split; [right; reflexivity|split; [reflexivity|]]].
    + split; [simpl; lia|]. repeat constructor; simpl; try lia; lra.
    + unfold example_cells3. apply Forall_forall. intros t Ht. apply repeat_spec in Ht. subst t. constructor.
  - vm_compute. auto.
Qed.
