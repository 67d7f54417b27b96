(** C66, C67, C68: the VTK reader. *)

From Coq Require Import Reals List Arith Lia Lra Bool Permutation Sorted.
From Flocq Require Import Core.Raux.
From Verif Require Import ShapeModel VtkModel VtkSpec.
Import ListNotations.
Open Scope nat_scope.

(** ** C66: node order *)

Lemma midpoint_table t :
  vtk_positions t = match t with
    | VTK_LINE => canonical_nodes Segment_Linear | VTK_QUADRATIC_EDGE => canonical_nodes Segment_Quadratic
    | VTK_QUAD => canonical_nodes Quad_Linear | VTK_QUADRATIC_QUAD => canonical_nodes Quad_Quadratic
    | VTK_TRIANGLE => canonical_nodes Triangle_Linear | VTK_QUADRATIC_TRIANGLE => canonical_nodes Triangle_Quadratic
    | VTK_TETRA => canonical_nodes Tetrahedron_Linear | VTK_QUADRATIC_TETRA => canonical_nodes Tetrahedron_Quadratic
    | VTK_HEXAHEDRON => canonical_nodes Hexahedron_Linear
    | VTK_QUADRATIC_HEXAHEDRON => canonical_nodes Hexahedron_Quadratic
    | VTK_other _ => []
    end.
Proof.
  destruct t; unfold vtk_positions, positions, vtk_corners, vtk_edges, midpoint; cbn [map app fst snd nth length seq];
    try reflexivity;
    unfold canonical_nodes, Quad_Quadratic_canonical_nodes, Hexahedron_Quadratic_canonical_nodes;
    repeat (f_equal; try lra).
Qed.

(** A cell in VTK's documented order becomes an element in its own canonical order, for every cell type but the
    quadratic hexahedron.  (Missing: the quadratic hexahedron, for which this is false.) *)
Theorem C66_documented_order_partial :
  forall D t (e : element) build (h : labelling),
    t <> VTK_QUADRATIC_HEXAHEDRON -> domain_builder D t = Some (e, build) ->
    build (map h (vtk_positions t)) = map h (canonical_nodes e).
Proof.
  intros D t e build h N B. rewrite midpoint_table.
  destruct t; cbn [domain_builder] in B; try congruence;
    try (destruct (1 <? D); try discriminate); try (destruct (2 <? D); try discriminate);
    injection B as <- <-; reflexivity.
Qed.
Print Assumptions C66_documented_order_partial.

(** The order of the edges of a quadratic hexahedron for which the reader is right; it is the order found in
    unittest/Caribou/Topology/meshes/3D_hexahedron_quadratic.vtk, not the documented one. *)
Definition expected_edges : list (nat * nat) :=
  [ (0, 1); (1, 2); (4, 5); (0, 3); (4, 7); (0, 4); (5, 6); (6, 7); (1, 5); (3, 7); (2, 3); (2, 6) ].

Theorem C66_hexahedron_other_order_partial :
  forall (h : labelling),
    reorder (map h (positions (vtk_corners VTK_QUADRATIC_HEXAHEDRON) expected_edges)) =
    map h (canonical_nodes Hexahedron_Quadratic).
Proof.
  intros h. cbv [reorder reordering]. unfold positions, vtk_corners, expected_edges, midpoint.
  cbn [map app fst snd nth length seq fold_left assign firstn skipn].
  unfold canonical_nodes, Hexahedron_Quadratic_canonical_nodes. cbn [map].
  repeat match goal with |- ?a :: ?b = ?c :: ?d => apply (f_equal2 cons); [apply f_equal; repeat (f_equal; try lra)|] end.
  reflexivity.
Qed.
Print Assumptions C66_hexahedron_other_order_partial.

(** A quadratic hexahedron with distinct nodes given in VTK's documented order is never read in canonical order. *)
Theorem C66_hexahedron_documented_order_refuted :
  forall (h : labelling),
    NoDup (map h (canonical_nodes Hexahedron_Quadratic)) ->
    reorder (map h (vtk_positions VTK_QUADRATIC_HEXAHEDRON)) <> map h (canonical_nodes Hexahedron_Quadratic).
Proof.
  intros h N E. rewrite midpoint_table in E.
  unfold canonical_nodes, Hexahedron_Quadratic_canonical_nodes in *. cbn [map] in *.
  remember (h [0; 1; -1]%R) as n10. remember (h [1; 1; 0]%R) as n18.
  assert (A : n10 = n18).
  { apply (f_equal (fun l => nth 10 l 0)) in E. cbv [reorder reordering] in E.
    cbn [map app fst snd nth length seq fold_left assign firstn skipn] in E. symmetry. exact E. }
  rewrite A in N. clear - N.
  do 10 (apply NoDup_cons_iff in N; destruct N as [_ N]).
  apply NoDup_cons_iff in N. destruct N as [N _]. apply N. cbn. tauto.
Qed.
Print Assumptions C66_hexahedron_documented_order_refuted.

(** It keeps the nodes of the element in every case: only their order is at stake. *)
Theorem C66_hexahedron_same_nodes :
  forall row, length row = 20 -> Permutation (reorder row) row.
Proof.
  intros row H. do 20 (destruct row as [|? row]; [discriminate|]). destruct row; [|discriminate].
  cbv [reorder reordering]. cbn [map app fst snd nth length seq fold_left assign firstn skipn].
  repeat apply perm_skip.
  repeat (match goal with
  | |- Permutation [] [] => apply perm_nil
  | |- Permutation (?a :: ?l) (?a :: ?l') => apply perm_skip
  | |- Permutation (?a :: ?l) (?x :: ?a :: ?l') => apply (Permutation_cons_app [x] l')
  | |- Permutation (?a :: ?l) (?x :: ?y :: ?a :: ?l') => apply (Permutation_cons_app [x; y] l')
  | |- Permutation (?a :: ?l) (?x :: ?y :: ?z :: ?a :: ?l') => apply (Permutation_cons_app [x; y; z] l')
  | |- Permutation (?a :: ?l) (?x :: ?y :: ?z :: ?t :: ?a :: ?l') => apply (Permutation_cons_app [x; y; z; t] l')
  | |- Permutation (?a :: ?l) (?x :: ?y :: ?z :: ?t :: ?u :: ?a :: ?l') =>
      apply (Permutation_cons_app [x; y; z; t; u] l')
  | |- Permutation (?a :: ?l) (?x :: ?y :: ?z :: ?t :: ?u :: ?v :: ?a :: ?l') =>
      apply (Permutation_cons_app [x; y; z; t; u; v] l')
  | |- Permutation (?a :: ?l) (?x :: ?y :: ?z :: ?t :: ?u :: ?v :: ?w :: ?a :: ?l') =>
      apply (Permutation_cons_app [x; y; z; t; u; v; w] l')
  | |- Permutation (?a :: ?l) (?x :: ?y :: ?z :: ?t :: ?u :: ?v :: ?w :: ?s :: ?a :: ?l') =>
      apply (Permutation_cons_app [x; y; z; t; u; v; w; s] l')
  end; cbn [app]).
Qed.
Print Assumptions C66_hexahedron_same_nodes.

(** ** C67: planar meshes *)

Lemma mark_length first same v : length (mark first same v) = 3.
Proof. unfold mark. rewrite map_length. reflexivity. Qed.

Lemma mark_nth first same v axis : axis < 3 ->
  nth axis (mark first same v) false = if Req_bool (nth axis first 0%R) (nth axis v 0%R) then nth axis same false else false.
Proof.
  intros H. unfold mark. destruct axis as [|[|[|]]]; [| | |lia]; cbn [map seq nth]; destruct Req_bool; reflexivity.
Qed.

Lemma fold_mark first : forall others same axis, axis < 3 ->
  nth axis (fold_left (mark first) others same) false =
  (nth axis same false && forallb (fun v => Req_bool (nth axis first 0%R) (nth axis v 0%R)) others)%bool.
Proof.
  induction others as [|v l IH]; intros same axis H; cbn [fold_left forallb]; [rewrite andb_true_r; reflexivity|].
  rewrite IH, mark_nth by assumption. destruct Req_bool; cbn; [reflexivity|]. destruct (nth axis same false); reflexivity.
Qed.

Lemma fold_mark_length first : forall others same, length same = 3 -> length (fold_left (mark first) others same) = 3.
Proof.
  induction others as [|v l IH]; intros same H; [assumption|]. cbn [fold_left]. apply IH, mark_length.
Qed.

Lemma same_false_varies first others axis : axis < 3 ->
  nth axis (fold_left (mark first) others [true; true; true]) false = false <-> varies axis (first :: others).
Proof.
  intros H. rewrite fold_mark by assumption.
  replace (nth axis [true; true; true] false) with true by (destruct axis as [|[|[|]]]; [reflexivity..|lia]).
  cbn [andb]. split.
  - intros F. assert (E : exists v, In v others /\ nth axis first 0%R <> nth axis v 0%R).
    { induction others as [|v l IH]; [discriminate|]. cbn [forallb] in F.
      destruct (Req_bool_spec (nth axis first 0%R) (nth axis v 0%R)) as [E | E].
      - destruct (IH F) as [w [Hw Nw]]. exists w. split; [right|]; assumption.
      - exists v. split; [left; reflexivity|assumption]. }
    destruct E as [v [Hv E]]. exists first, v. cbn. auto.
  - intros [p [q [Hp [Hq E]]]]. apply not_true_is_false. intros T. rewrite forallb_forall in T.
    assert (G : forall v, In v (first :: others) -> nth axis v 0%R = nth axis first 0%R).
    { intros v [<- | Hv]; [reflexivity|]. specialize (T v Hv).
      destruct (Req_bool_spec (nth axis first 0%R) (nth axis v 0%R)); congruence. }
    apply E. rewrite (G p Hp), (G q Hq). reflexivity.
Qed.

Lemma kept_spec same : length same = 3 -> forall axis, In axis (kept same) <-> axis < 3 /\ nth axis same false = false.
Proof.
  intros _ axis. unfold kept. rewrite filter_In, in_seq, negb_true_iff. intuition lia.
Qed.

Lemma kept_length same : length same = 3 -> length (kept same) = length (filter negb same).
Proof.
  intros H. destruct same as [|a [|b [|c [|]]]]; try discriminate. unfold kept. cbn.
  destruct a, b, c; reflexivity.
Qed.

Lemma kept_increasing same : length same = 3 ->
  forall i j, i < j < length (kept same) -> nth i (kept same) 0 < nth j (kept same) 0.
Proof.
  intros H. destruct same as [|a [|b [|c [|]]]]; try discriminate. unfold kept. cbn [seq filter nth].
  destruct a, b, c; cbn; intros i j Hij; destruct i as [|[|[|i]]], j as [|[|[|j]]]; cbn; lia.
Qed.

Lemma varying_axes_unique pts l l' : varying_axes pts l -> varying_axes pts l' -> l = l'.
Proof.
  intros [A I] [A' I'].
  assert (S : forall l, (forall i j, i < j < length l -> nth i l 0 < nth j l 0) -> StronglySorted lt l).
  { clear. induction l as [|x l IH]; intros I; [constructor|]. constructor.
    - apply IH. intros i j H. apply (I (S i) (S j)). cbn. lia.
    - apply Forall_forall. intros y Hy. destruct (In_nth l y 0 Hy) as [k [Hk <-]]. apply (I 0 (S k)). cbn. lia. }
  pose proof (S l I) as L. pose proof (S l' I') as L'.
  assert (E : forall x, In x l <-> In x l') by (intros x; rewrite A, A'; tauto).
  clear - L L' E. revert l' L' E. induction L as [|x l L IH F]; intros l' L' E.
  - destruct l' as [|y l']; [reflexivity|]. exfalso. apply (E y). left. reflexivity.
  - destruct L' as [|y l' L' F']; [exfalso; apply (E x); left; reflexivity|].
    rewrite Forall_forall in F, F'.
    assert (x = y).
    { assert (Hx : In x (y :: l')) by (apply E; left; reflexivity).
      assert (Hy : In y (x :: l)) by (apply E; left; reflexivity).
      destruct Hx as [-> | Hx]; [reflexivity|]. destruct Hy as [-> | Hy]; [reflexivity|].
      specialize (F y Hy). specialize (F' x Hx). lia. }
    subst y. f_equal. apply IH; [assumption|]. intros z. split; intros Hz.
    + assert (H : In z (x :: l')) by (apply E; right; assumption). destruct H as [-> | H]; [|assumption].
      specialize (F z Hz). lia.
    + assert (H : In z (x :: l)) by (apply E; right; assumption). destruct H as [-> | H]; [|assumption].
      specialize (F' z Hz). lia.
Qed.

(** In dimension 1 and 2, with at least one point: there is a unique increasing list of the axes along which the
    coordinates vary; it is what the reader keeps when it has D axes, and the reader throws when it has not. *)
Theorem C67_axes_partial :
  forall D pts, D <> 3 -> pts <> [] ->
    exists axes, varying_axes pts axes /\ (forall axes', varying_axes pts axes' -> axes' = axes) /\
      extract_axes D pts = if Nat.eqb (length axes) D then Returns axes else Throws.
Proof.
  intros D pts ND NE. destruct pts as [|first others]; [congruence|].
  set (same := fold_left (mark first) others [true; true; true]).
  assert (L : length same = 3) by (apply fold_mark_length; reflexivity).
  assert (V : varying_axes (first :: others) (kept same)).
  { split.
    - intros axis. rewrite (kept_spec same L). split; intros [H H']; (split; [assumption|]);
        apply (same_false_varies first others axis H); assumption.
    - apply kept_increasing, L. }
  exists (kept same). split; [assumption|]. split.
  - intros axes' V'. exact (varying_axes_unique _ _ _ V' V).
  - unfold extract_axes. rewrite (proj2 (Nat.eqb_neq D 3) ND). fold same. rewrite kept_length by assumption. reflexivity.
Qed.
Print Assumptions C67_axes_partial.

(** ** The whole file *)

Lemma read_types_spec D g : uniform g -> forall types m,
  exists m', fold_left (read_type D g) types (Some m) = Some m' /\ nodes m' = nodes m /\
    exists new, domains m' = domains m ++ new /\
      map (fun d => (kind d, rows d)) new =
        flat_map (fun t => match cells_of_type g t, domain_builder D t with
                           | [], _ | _, None => []
                           | l, Some (e, build) => [(e, map build l)] end) types /\
      map name new = seq (S (length (domains m))) (length new).
Proof.
  intros U. induction types as [|t types IH]; intros m.
  - exists m. split; [reflexivity|]. split; [reflexivity|]. exists []. rewrite app_nil_r. repeat split.
  - cbn [fold_left flat_map]. unfold read_type at 2.
    destruct (cells_of_type g t) as [|c l] eqn:C.
    { cbn [app]. destruct (IH m) as [m' H]. exists m'. exact H. }
    destruct (domain_builder D t) as [[e build]|] eqn:B.
    2:{ cbn [app]. destruct (IH m) as [m' H]. exists m'. exact H. }
    replace (forallb (fun r => length r =? length c) (c :: l)) with true.
    2:{ symmetry. apply forallb_forall. intros r Hr. apply Nat.eqb_eq.
        assert (T : forall r, In r (c :: l) -> In (t, r) (cells g)).
        { intros r' Hr'. rewrite <- C in Hr'. unfold cells_of_type in Hr'. apply in_map_iff in Hr'.
          destruct Hr' as [[t' r''] [<- F]]. apply filter_In in F. destruct F as [F E]. cbn in E.
          apply internal_cell_type_dec_bl in E. subst t'. exact F. }
        apply (U t); apply T; [assumption|left; reflexivity]. }
    match goal with |- context [Some ?x] => destruct (IH x) as [m' [E [EN [new [ED [EK EM]]]]]] end.
    exists m'. split; [exact E|]. split; [exact EN|].
    cbn [domains] in ED, EM. rewrite <- app_assoc in ED. cbn [app] in ED.
    eexists. split; [exact ED|]. split.
    + cbn [map app]. rewrite EK. reflexivity.
    + cbn [map length seq]. rewrite EM, app_length. cbn. rewrite Nat.add_1_r. reflexivity.
Qed.

Lemma cells_of_type_In g t c : In c (cells_of_type g t) <-> In (t, c) (cells g).
Proof.
  unfold cells_of_type. rewrite in_map_iff. split.
  - intros [[t' c'] [<- F]]. apply filter_In in F. destruct F as [F E]. cbn in E.
    apply internal_cell_type_dec_bl in E. subst t'. exact F.
  - intros H. exists (t, c). split; [reflexivity|]. apply filter_In. split; [assumption|]. cbn.
    apply internal_cell_type_dec_lb. reflexivity.
Qed.

Lemma builder_supported D t : 0 < D ->
  (forall e build, domain_builder D t = Some (e, build) ->
     supported D t e /\ (build = reorder /\ t = VTK_QUADRATIC_HEXAHEDRON \/ build = (fun r => r) /\ t <> VTK_QUADRATIC_HEXAHEDRON)) /\
  (forall e, supported D t e -> exists build, domain_builder D t = Some (e, build)).
Proof.
  intros HD. split.
  - intros e build B.
    destruct t; cbn [domain_builder] in B; try discriminate;
      try (destruct (1 <? D) eqn:E; [apply Nat.ltb_lt in E|discriminate]);
      try (destruct (2 <? D) eqn:E; [apply Nat.ltb_lt in E|discriminate]);
      injection B as <- <-; (split; [split; [reflexivity|cbn; lia]|]); (left; split; reflexivity) || (right; split; [reflexivity|discriminate]).
  - intros e [E L]. destruct t; try discriminate; injection E as <-; cbn in L; cbn [domain_builder];
      try replace (1 <? D) with true by (symmetry; apply Nat.ltb_lt; lia);
      try replace (2 <? D) with true by (symmetry; apply Nat.ltb_lt; lia); eexists; reflexivity.
Qed.

Lemma element_of_injective t t' e : element_of t = Some e -> element_of t' = Some e -> t = t'.
Proof. destruct t, t'; cbn; congruence. Qed.

(** Reading a file whose axes are recognised gives a mesh with one node per point, in order, made of the kept
    coordinates. *)
Theorem C67_nodes :
  forall D g types m axes,
    uniform g -> extract_axes D (points g) = Returns axes -> read D g types = Returns m ->
    nodes m = map (fun p => map (fun axis => nth axis p 0%R) axes) (points g).
Proof.
  intros D g types m axes U A E. unfold read in E. rewrite A in E. unfold read_mesh in E.
  destruct (points g) as [|p l] eqn:P.
  - injection E as <-. reflexivity.
  - rewrite <- P in *.
    destruct (read_types_spec D g U types
                {| nodes := map (fun v => map (fun axis => nth axis v 0%R) axes) (points g); domains := [] |})
      as [m' [F [N _]]]. rewrite F in E. injection E as <-. exact N.
Qed.
Print Assumptions C67_nodes.

(** No information is lost by dropping the constant axes: different points stay different. *)
Theorem C67_lossless :
  forall D pts axes p q,
    extract_axes D pts = Returns axes -> In p pts -> In q pts ->
    (forall axis, In axis axes -> nth axis p 0%R = nth axis q 0%R) ->
    forall axis, axis < 3 -> nth axis p 0%R = nth axis q 0%R.
Proof.
  intros D pts axes p q A Hp Hq E axis H.
  destruct (Nat.eq_dec D 3) as [-> | ND].
  - cbn in A. injection A as <-. apply E. destruct axis as [|[|[|]]]; cbn; auto; lia.
  - assert (NE : pts <> []) by (intros ->; destruct Hp).
    destruct (C67_axes_partial D pts ND NE) as [axes' [[V _] [_ X]]]. rewrite X in A.
    destruct (Nat.eqb (length axes') D); [|discriminate]. injection A as <-.
    destruct (Req_dec (nth axis p 0%R) (nth axis q 0%R)) as [R | R]; [assumption|].
    apply E, V. split; [assumption|]. exists p, q. auto.
Qed.
Print Assumptions C67_lossless.

(** A file without any point gives an empty mesh in dimension 3; in dimension 1 and 2 the first point is read before the
    number of points is looked at. *)
Theorem C67_empty_file_refuted :
  forall D g types, points g = [] -> read D g types = if Nat.eqb D 3 then Returns {| nodes := []; domains := [] |} else Undefined.
Proof.
  intros D g types P. unfold read, extract_axes, read_mesh. rewrite P. destruct (Nat.eqb D 3); reflexivity.
Qed.
Print Assumptions C67_empty_file_refuted.

(** C68: every supported cell type present in a file gives exactly one domain, which lists the cells of this type in
    the order of the file (for the quadratic hexahedra, up to the order of the nodes in each row: C66); there is no
    other domain, and no two domains have the same name. *)
Theorem C68_domains :
  forall D g types axes,
    0 < D -> uniform g -> enumerates g types -> points g <> [] -> extract_axes D (points g) = Returns axes ->
    exists m, read D g types = Returns m /\
      (forall t e, supported D t e -> (exists c, In (t, c) (cells g)) ->
         exists d, filter (fun d => if element_eq_dec (kind d) e then true else false) (domains m) = [d] /\
           length (rows d) = length (filter (fun c => cell_type_beq (fst c) t) (cells g)) /\
           forall i, i < length (rows d) ->
             let row := snd (nth i (filter (fun c => cell_type_beq (fst c) t) (cells g)) (t, [])) in
             nth i (rows d) [] = if cell_type_beq t VTK_QUADRATIC_HEXAHEDRON then reorder row else row) /\
      (forall d, In d (domains m) -> exists t, supported D t (kind d) /\ exists c, In (t, c) (cells g)) /\
      map name (domains m) = seq 1 (length (domains m)).
Proof.
  intros D g types axes HD U [ND EN] NE A. unfold read. rewrite A. unfold read_mesh.
  destruct (points g) as [|p l] eqn:P; [congruence|]. rewrite <- P.
  destruct (read_types_spec D g U types
              {| nodes := map (fun v => map (fun axis => nth axis v 0%R) axes) (points g); domains := [] |})
    as [m [F [_ [new [ED [EK EM]]]]]]. rewrite F. exists m. split; [reflexivity|].
  cbn [domains app length] in ED, EM. rewrite ED.
  set (built := fun t => match cells_of_type g t, domain_builder D t with
                         | [], _ | _, None => [] | l, Some (e, build) => [(e, map build l)] end) in *.
  assert (K : forall t x, In x (built t) -> element_of t = Some (fst x)).
  { intros t x Hx. unfold built in Hx. destruct (cells_of_type g t); [destruct Hx|].
    destruct (domain_builder D t) as [[e build]|] eqn:B; [|destruct Hx]. destruct Hx as [<- | []].
    apply (proj1 (builder_supported D t HD)) in B. apply B. }
  split; [|split; [|exact EM]].
  - intros t e S [c Hc].
    destruct (proj2 (builder_supported D t HD) e S) as [build B].
    assert (I : In t types) by (apply EN; exists c; assumption).
    assert (FM : filter (fun x : element * list (list nat) => if element_eq_dec (fst x) e then true else false)
                   (flat_map built types) = [(e, map build (cells_of_type g t))]).
    { clear - ND I S B K Hc. destruct S as [S _]. induction types as [|t' types IH]; [destruct I|].
      inversion ND as [|? ? N ND']; subst. cbn [flat_map]. rewrite filter_app.
      destruct I as [-> | I].
      - assert (Z : filter (fun x => if element_eq_dec (fst x) e then true else false) (flat_map built types) = []).
        { clear - N S K. induction types as [|t' types IH]; [reflexivity|]. cbn [flat_map]. rewrite filter_app.
          rewrite IH by (intros H; apply N; right; assumption). rewrite app_nil_r.
          destruct (filter _ (built t')) as [|x r] eqn:FB; [reflexivity|]. exfalso.
          assert (Hx : In x (filter (fun x => if element_eq_dec (fst x) e then true else false) (built t')))
            by (rewrite FB; left; reflexivity).
          apply filter_In in Hx. destruct Hx as [Hx Ex]. apply K in Hx.
          destruct (element_eq_dec (fst x) e) as [Q|]; [|discriminate]. rewrite Q in Hx.
          apply N. left. exact (element_of_injective _ _ _ Hx S). }
        rewrite Z, app_nil_r. unfold built. rewrite B. apply cells_of_type_In in Hc.
        destruct (cells_of_type g t); [destruct Hc|]. cbn [filter fst].
        destruct (element_eq_dec e e); [reflexivity|congruence].
      - rewrite IH by assumption.
        destruct (filter _ (built t')) as [|x r] eqn:FB; [reflexivity|]. exfalso.
        assert (Hx : In x (filter (fun x => if element_eq_dec (fst x) e then true else false) (built t')))
          by (rewrite FB; left; reflexivity).
        apply filter_In in Hx. destruct Hx as [Hx Ex]. apply K in Hx.
        destruct (element_eq_dec (fst x) e) as [Q|]; [|discriminate]. rewrite Q in Hx.
        apply N. rewrite (element_of_injective _ _ _ Hx S). exact I. }
    rewrite <- EK in FM.
    assert (G : forall l : list domain, filter (fun x : element * list (list nat) => if element_eq_dec (fst x) e then true else false)
                  (map (fun d => (kind d, rows d)) l) =
                map (fun d => (kind d, rows d)) (filter (fun d => if element_eq_dec (kind d) e then true else false) l)).
    { clear. induction l as [|d l IH]; [reflexivity|]. cbn [map filter fst].
      destruct (element_eq_dec (kind d) e); cbn [map]; rewrite IH; reflexivity. }
    rewrite G in FM.
    destruct (filter (fun d => if element_eq_dec (kind d) e then true else false) new) as [|d [|]] eqn:FD; try discriminate.
    cbn [map] in FM. injection FM as E1 E2. exists d. split; [reflexivity|]. rewrite E2. unfold cells_of_type.
    rewrite !map_length. split; [reflexivity|]. intros i Hi. cbn zeta.
    rewrite nth_indep with (d' := build (snd (t, @nil nat))) by (rewrite !map_length; assumption).
    rewrite map_nth, map_nth.
    destruct (proj1 (builder_supported D t HD) e build B) as [_ [[-> ->] | [-> NT]]].
    + rewrite internal_cell_type_dec_lb by reflexivity. reflexivity.
    + replace (cell_type_beq t VTK_QUADRATIC_HEXAHEDRON) with false; [reflexivity|].
      symmetry. apply not_true_is_false. intros Q. apply internal_cell_type_dec_bl in Q. contradiction.
  - intros d Hd.
    assert (I : In (kind d, rows d) (flat_map built types)).
    { rewrite <- EK. apply in_map_iff. exists d. auto. }
    apply in_flat_map in I. destruct I as [t [It Ib]]. exists t. split.
    + unfold built in Ib. destruct (cells_of_type g t); [destruct Ib|].
      destruct (domain_builder D t) as [[e build]|] eqn:B; [|destruct Ib]. destruct Ib as [Ib | []].
      injection Ib as <- _. exact (proj1 (proj1 (builder_supported D t HD) e build B)).
    + apply EN, It.
Qed.
Print Assumptions C68_domains.

(** ** Witnesses *)
Definition planar_points : list (list R) := [ [24; 0; 12]; [64; 0; 22]; [51; 0; 9] ]%R.
Example C67_witness : varying_axes planar_points [0; 2].
Proof.
  split.
  - intros axis. split.
    + intros [<- | [<- | []]]; (split; [lia|]).
      * exists [24; 0; 12]%R, [64; 0; 22]%R. cbn. repeat split; auto. lra.
      * exists [24; 0; 12]%R, [64; 0; 22]%R. cbn. repeat split; auto. lra.
    + intros [H [p [q [Hp [Hq E]]]]]. destruct axis as [|[|[|]]]; cbn; auto; [|lia].
      exfalso. apply E. destruct Hp as [<- | [<- | [<- | []]]], Hq as [<- | [<- | [<- | []]]]; reflexivity.
  - cbn [length]. intros i j H. destruct i as [|[|i]], j as [|[|j]]; cbn; lia.
Qed.

Definition two_types : grid :=
  {| points := planar_points; cells := [ (VTK_TRIANGLE, [0; 1; 2]); (VTK_LINE, [0; 1]); (VTK_TRIANGLE, [2; 1; 0]) ] |}.
Example C68_witness :
  uniform two_types /\ enumerates two_types [VTK_TRIANGLE; VTK_LINE] /\ points two_types <> [] /\
  supported 2 VTK_TRIANGLE Triangle_Linear /\ exists axes, extract_axes 2 (points two_types) = Returns axes.
Proof.
  split; [|split; [|split; [|split]]].
  - intros t c c' [H | [H | [H | []]]] [H' | [H' | [H' | []]]]; injection H as <- <-; try discriminate; injection H' as <-; reflexivity.
  - split.
    + repeat constructor; cbn; intuition discriminate.
    + intros t. cbn. split.
      * intros [<- | [<- | []]]; [exists [0; 1; 2] | exists [0; 1]]; auto.
      * intros [c [H | [H | [H | []]]]]; injection H as <- <-; auto.
  - discriminate.
  - split; [reflexivity|cbn; lia].
  - destruct (C67_axes_partial 2 planar_points ltac:(lia) ltac:(discriminate)) as [axes [V [U E]]].
    exists axes. change (points two_types) with planar_points. rewrite E.
    pose proof (U _ C67_witness) as <-. reflexivity.
Qed.

(** Distinct nodes: the label of a point of the reference cell is 9 a + 3 b + c with each coordinate in {-1, 0, 1}. *)
Definition number (p : list R) : nat :=
  let digit x := if Req_bool x 0%R then 0 else if Req_bool x 1%R then 1 else 2 in
  9 * digit (nth 0 p 0%R) + 3 * digit (nth 1 p 0%R) + digit (nth 2 p 0%R).
Example C66_witness : NoDup (map number (canonical_nodes Hexahedron_Quadratic)).
Proof.
  unfold canonical_nodes, Hexahedron_Quadratic_canonical_nodes, number. cbn [map nth].
  rewrite (Req_bool_true 0 0), (Req_bool_true 1 1), (Req_bool_false 1 0), (Req_bool_false (-1) 0),
    (Req_bool_false (-1) 1) by lra.
  repeat constructor; cbn; intuition lia.
Qed.
