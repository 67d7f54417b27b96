(** Sparse grid, classification from an implicit surface, types of points. *)

From Coq Require Import ZArith Reals Lra Lia Permutation.
From Coq Require Import List Arith Bool.
From Verif Require Import GridModel GridSpec GridProofs GridGeoModel GridGeoSpec GridGeoProofs ShapeModel Sums FictModel FictSpec FictProofs FictProofs2
  FictProofs3 FictProofs4 FictProofs5 FictProofs6.
Import ListNotations.
Open Scope nat_scope.

(** * Numbering *)

Lemma seq_S_map : forall a n, map Z.of_nat (seq a (S n)) = Z.of_nat a :: map Z.of_nat (seq (S a) n).
Proof. reflexivity. Qed.

Lemma numbering_ext : forall n (P Q : nat -> Prop) s f, (forall c, c < n -> P c <-> Q c) -> numbering n P s f -> numbering n Q s f.
Proof.
  intros n P Q s f H (H1 & H2 & H3 & H4). split; [exact H1|]. split; [|split].
  - intros k i E. destruct (H2 k i E) as (c & Ei & Hc & U & Ek). exists c. split; [exact Ei|]. split; [exact Hc|]. split; [apply H; assumption|exact Ek].
  - intros c Hc U. apply H3; [exact Hc|]. apply H; assumption.
  - intros c Hc U. apply H4; [exact Hc|]. intros C. apply U. apply H; assumption.
Qed.

Lemma number_spec : forall in_use n a sp gr, numbering a (fun c => in_use (Z.of_nat c) = true) sp gr ->
  let r := number in_use (map Z.of_nat (seq a n)) sp gr in
  numbering (a + n) (fun c => in_use (Z.of_nat c) = true) (fst r) (snd r).
Proof.
  intros in_use. induction n as [|n IH]; intros a sp gr H.
  - simpl. rewrite Nat.add_0_r. exact H.
  - rewrite seq_S_map. cbn [number]. replace (a + S n) with (S a + n) by lia.
    destruct H as (H1 & H2 & H3 & H4).
    destruct (in_use (Z.of_nat a)) eqn:U; apply IH.
    + split; [rewrite app_length; simpl; lia|]. split; [|split].
      * intros k i E. destruct (Nat.lt_ge_cases k (length gr)) as [C|C].
        -- rewrite nth_error_app1 in E by exact C. destruct (H2 k i E) as (c & -> & Hc & Uc & Ec).
           exists c. repeat split; [lia|exact Uc|]. rewrite nth_error_app1 by lia. exact Ec.
        -- rewrite nth_error_app2 in E by exact C. destruct (k - length gr) as [|m] eqn:Ek; [|destruct m; discriminate].
           inversion E; subst i. exists a. repeat split; [lia|exact U|]. rewrite nth_error_app2 by lia. rewrite H1, Nat.sub_diag. simpl.
           do 2 f_equal. lia.
      * intros c Hc Uc. destruct (Nat.eq_dec c a) as [->|N].
        -- exists (length gr). rewrite nth_error_app2, Nat.sub_diag by lia. reflexivity.
        -- destruct (H3 c) as (k & Ek); [lia|exact Uc|]. exists k. rewrite nth_error_app1; [exact Ek|]. apply nth_error_Some. congruence.
      * intros c Hc Nc. destruct (Nat.eq_dec c a) as [->|N]; [contradiction|]. rewrite nth_error_app1 by lia. apply H4; [lia|exact Nc].
    + split; [rewrite app_length; simpl; lia|]. split; [|split].
      * intros k i E. destruct (H2 k i E) as (c & -> & Hc & Uc & Ec). exists c. repeat split; [lia|exact Uc|]. rewrite nth_error_app1 by lia. exact Ec.
      * intros c Hc Uc. apply H3; [|exact Uc]. destruct (Nat.eq_dec c a) as [->|N]; [congruence|lia].
      * intros c Hc Nc. destruct (Nat.eq_dec c a) as [->|N].
        -- rewrite nth_error_app2 by lia. rewrite H1, Nat.sub_diag. reflexivity.
        -- rewrite nth_error_app1 by lia. apply H4; [lia|exact Nc].
Qed.

Lemma number_from_zero : forall in_use n,
  let r := number in_use (map Z.of_nat (seq 0 n)) [] [] in
  numbering n (fun c => in_use (Z.of_nat c) = true) (fst r) (snd r).
Proof.
  intros in_use n. apply (number_spec in_use n 0). split; [reflexivity|]. split; [intros k i E; destruct k; discriminate|].
  split; intros; lia.
Qed.

(** Nodes of the cells *)
Lemma nodes_below : forall g cell, valid_grid g -> (length g = 2 \/ length g = 3) -> below (number_of_cells (subdivisions g)) cell ->
  Forall (below (number_of_nodes (subdivisions g))) (node_indices_of (subdivisions g) cell).
Proof.
  intros g cell [_ F] HD B. destruct g as [|a [|b [|c [|? ?]]]]; simpl in HD; try lia.
  - inversion F as [|? ? [Ha _] F1]; subst. inversion F1 as [|? ? [Hb _] _]; subst.
    assert (B' : below (number_of_cells2 (ax_n a) (ax_n b)) cell)
      by (unfold below, number_of_cells in *; simpl in B; unfold number_of_cells2, number_of_cells3; lia).
    destruct (corners2 (ax_n a) (ax_n b) cell Ha Hb B') as (_ & _ & H & _).
    cbn [subdivisions map node_indices_of]. eapply Forall_impl; [|exact H]. intros z [H1 H2].
    unfold below, number_of_nodes. simpl. unfold number_of_nodes2 in H2. lia.
  - inversion F as [|? ? [Ha _] F1]; subst. inversion F1 as [|? ? [Hb _] F2]; subst. inversion F2 as [|? ? [Hc _] _]; subst.
    assert (B' : below (number_of_cells3 (ax_n a) (ax_n b) (ax_n c)) cell)
      by (unfold below, number_of_cells in *; simpl in B; unfold number_of_cells2, number_of_cells3; lia).
    destruct (corners3 (ax_n a) (ax_n b) (ax_n c) cell Ha Hb Hc B') as (_ & _ & H & _).
    cbn [subdivisions map node_indices_of]. eapply Forall_impl; [|exact H]. intros z [H1 H2].
    unfold below, number_of_nodes. simpl. unfold number_of_nodes3 in H2. lia.
Qed.

Lemma use_node_spec : forall ns n use node,
  use_node ns (filter use (seq 0 n)) node = true <-> exists c, c < n /\ use c = true /\ In node (node_indices_of ns (Z.of_nat c)).
Proof.
  intros ns n use node. unfold use_node. rewrite existsb_exists. split.
  - intros (c & I & E). apply filter_In in I. destruct I as [I U]. apply in_seq in I. apply existsb_exists in E.
    destruct E as (m & Im & Em). apply Z.eqb_eq in Em. subst m. exists c. repeat split; [lia|exact U|exact Im].
  - intros (c & Hc & U & I). exists c. split.
    + apply filter_In. split; [apply in_seq; lia|exact U].
    + apply existsb_exists. exists node. split; [exact I|apply Z.eqb_refl].
Qed.

Lemma number_of_cells_nonneg : forall g, valid_grid g -> (0 <= number_of_cells (subdivisions g))%Z.
Proof.
  intros g [_ F]. unfold number_of_cells. induction F as [|a g [Ha _] F IH]; simpl; [lia|]. apply Z.mul_nonneg_nonneg; lia.
Qed.

(** * The sparse grid for any set of cells *)
Lemma sparse_spec : forall g use, valid_grid g -> (length g = 2 \/ length g = 3) ->
  let s := create_sparse_grid g use in
  let ns := subdivisions g in
  let n := Z.to_nat (number_of_cells ns) in
  numbering n (fun c => use c = true) (cell_index_in_sparse_grid s) (cell_index_in_grid s) /\
  numbering (Z.to_nat (number_of_nodes ns)) (fun m => exists c, c < n /\ use c = true /\ In (Z.of_nat m) (node_indices_of ns (Z.of_nat c)))
    (node_index_in_sparse_grid s) (node_index_in_grid s) /\
  positions s = map (node_at_index g) (node_index_in_grid s) /\
  length (cells_of_nodes s) = length (cell_index_in_grid s) /\
  (forall k c, nth_error (cell_index_in_grid s) k = Some c -> exists l, nth_error (cells_of_nodes s) k = Some l /\
     Forall2 (fun sparse full => (0 <= sparse)%Z /\ nth_error (node_index_in_grid s) (Z.to_nat sparse) = Some full) l (node_indices_of ns c)).
Proof.
  intros g use Hg HD s ns n.
  assert (Es : s = Sparse (fst (number (use_node ns (filter use (seq 0 n))) (map Z.of_nat (seq 0 (Z.to_nat (number_of_nodes ns)))) [] []))
     (snd (number (use_node ns (filter use (seq 0 n))) (map Z.of_nat (seq 0 (Z.to_nat (number_of_nodes ns)))) [] []))
     (map (node_at_index g) (snd (number (use_node ns (filter use (seq 0 n))) (map Z.of_nat (seq 0 (Z.to_nat (number_of_nodes ns)))) [] [])))
     (fst (number (fun c => use (Z.to_nat c)) (map Z.of_nat (seq 0 n)) [] []))
     (snd (number (fun c => use (Z.to_nat c)) (map Z.of_nat (seq 0 n)) [] []))
     (map (fun c => map (fun m => nth (Z.to_nat m) (fst (number (use_node ns (filter use (seq 0 n))) (map Z.of_nat (seq 0 (Z.to_nat (number_of_nodes ns)))) [] [])) (-1)%Z) (node_indices_of ns c))
        (snd (number (fun c => use (Z.to_nat c)) (map Z.of_nat (seq 0 n)) [] [])))).
  { unfold s, create_sparse_grid. fold ns n. destruct (number (use_node _ _) _ _ _) as [x y]. destruct (number _ _ _ _) as [x' y']. reflexivity. }
  assert (NC : numbering n (fun c => use c = true) (cell_index_in_sparse_grid s) (cell_index_in_grid s)).
  { rewrite Es. cbn [cell_index_in_sparse_grid cell_index_in_grid].
    eapply numbering_ext; [|apply number_from_zero]. intros c Hc. cbn beta. rewrite Nat2Z.id. tauto. }
  assert (NN : numbering (Z.to_nat (number_of_nodes ns)) (fun m => exists c, c < n /\ use c = true /\ In (Z.of_nat m) (node_indices_of ns (Z.of_nat c)))
    (node_index_in_sparse_grid s) (node_index_in_grid s)).
  { rewrite Es. cbn [node_index_in_sparse_grid node_index_in_grid].
    eapply numbering_ext; [|apply number_from_zero]. intros c Hc. cbn beta. apply use_node_spec. }
  split; [exact NC|]. split; [exact NN|]. split; [rewrite Es; reflexivity|]. split; [rewrite Es; cbn [cells_of_nodes cell_index_in_grid]; apply map_length|].
  intros k c E. exists (map (fun m => nth (Z.to_nat m) (node_index_in_sparse_grid s) (-1)%Z) (node_indices_of ns c)). split.
  - assert (Ec : cells_of_nodes s = map (fun c => map (fun m => nth (Z.to_nat m) (node_index_in_sparse_grid s) (-1)%Z) (node_indices_of ns c)) (cell_index_in_grid s))
      by (rewrite Es; reflexivity).
    rewrite Ec, nth_error_map, E. reflexivity.
  - destruct NC as (_ & NC & _). destruct (NC k c E) as (c' & -> & Hc & Uc & _).
    assert (B : below (number_of_cells ns) (Z.of_nat c')) by (pose proof (number_of_cells_nonneg g Hg); unfold below, n, ns in *; lia).
    pose proof (nodes_below g (Z.of_nat c') Hg HD B) as NB. fold ns in NB. rewrite Forall_forall in NB.
    assert (G : forall m, In m (node_indices_of ns (Z.of_nat c')) ->
      (0 <= nth (Z.to_nat m) (node_index_in_sparse_grid s) (-1)%Z)%Z /\
      nth_error (node_index_in_grid s) (Z.to_nat (nth (Z.to_nat m) (node_index_in_sparse_grid s) (-1)%Z)) = Some m).
    { intros m I. destruct (NB m I) as [M1 M2]. destruct NN as (L & N2 & N3 & _).
      assert (Hm : Z.to_nat m < Z.to_nat (number_of_nodes ns)) by lia.
      destruct (N3 (Z.to_nat m) Hm) as (j & Ej); [exists c'; split; [exact Hc|]; split; [exact Uc|]; rewrite Z2Nat.id by exact M1; exact I|].
      destruct (N2 j _ Ej) as (c2 & Ec2 & _ & _ & E2). apply Nat2Z.inj in Ec2. subst c2. rewrite Z2Nat.id in Ej by exact M1.
      rewrite (nth_error_nth _ _ _ E2). split; [lia|]. rewrite Nat2Z.id. exact Ej. }
    clear -G. induction (node_indices_of ns (Z.of_nat c')) as [|m l IH]; constructor.
    + apply G. left. reflexivity.
    + apply IH. intros m' I. apply G. right. exact I.
Qed.

(** * Implicit surface *)

Lemma count_all : forall ty (l : list cell_type), count ty l = length l <-> forall x, In x l -> x = ty.
Proof.
  intros ty l. unfold count. induction l as [|x l IH]; simpl; [tauto|]. 
  assert (Hle : length (filter (type_eqb ty) l) <= length l).
  { clear. induction l as [|y l IH]; simpl; [lia|]. destruct (type_eqb ty y); simpl; lia. }
  destruct (type_eqb_spec ty x) as [->|N]; simpl.
  - split.
    + intros H y [<-|I]; [reflexivity|]. apply IH; [lia|exact I].
    + intros H. f_equal. apply IH. intros y I. apply H. right. exact I.
  - split; [lia|]. intros H. exfalso. apply N. symmetry. apply H. left. reflexivity.
Qed.

Lemma sign_inside : forall t, sign_type t = Inside <-> (t < 0)%R.
Proof. intros t. unfold sign_type. destruct (Rlt_dec t 0); [tauto|]. destruct (Rlt_dec 0 t); split; intros; try discriminate; lra. Qed.
Lemma sign_outside : forall t, sign_type t = Outside <-> (0 < t)%R.
Proof. intros t. unfold sign_type. destruct (Rlt_dec t 0); [split; intros; [discriminate|lra]|]. destruct (Rlt_dec 0 t); split; intros; try discriminate; tauto. Qed.
Lemma sign_boundary : forall t, sign_type t = Boundary <-> t = 0%R.
Proof. intros t. unfold sign_type. destruct (Rlt_dec t 0); [split; intros; [discriminate|lra]|]. destruct (Rlt_dec 0 t); split; intros; try discriminate; try lra. reflexivity. Qed.
Lemma sign_defined : forall t, sign_type t <> Undefined.
Proof. intros t. unfold sign_type. destruct (Rlt_dec t 0); [discriminate|]. destruct (Rlt_dec 0 t); discriminate. Qed.

Definition corner_type (iso : list R -> R) (nodes : list (list R)) : cell_type :=
  let types := map (fun x => sign_type (iso x)) nodes in
  if Nat.eqb (count Inside types) (length nodes) then Inside
  else if Nat.eqb (count Outside types) (length nodes) then Outside else Boundary.

(** What the values at the nodes of a cell say of the cell. *)
Definition type_by_corners (iso_value : list R -> R) (nodes : list (list R)) (ty : cell_type) : Prop :=
  (ty = Inside /\ (forall x, In x nodes -> iso_value x < 0)%R) \/
  (ty = Outside /\ (forall x, In x nodes -> 0 < iso_value x)%R) \/
  (ty = Boundary /\ ~ (forall x, In x nodes -> iso_value x < 0)%R /\ ~ (forall x, In x nodes -> 0 < iso_value x)%R).
Lemma corner_type_spec : forall iso nodes, type_by_corners iso nodes (corner_type iso nodes).
Proof.
  intros iso nodes. unfold corner_type.
  assert (I : count Inside (map (fun x => sign_type (iso x)) nodes) = length nodes <-> forall x, In x nodes -> (iso x < 0)%R).
  { rewrite <- (map_length (fun x => sign_type (iso x)) nodes), count_all. split.
    - intros H x Ix. apply sign_inside. apply H. apply in_map_iff. eauto.
    - intros H y Iy. apply in_map_iff in Iy. destruct Iy as (x & <- & Ix). apply sign_inside. auto. }
  assert (O : count Outside (map (fun x => sign_type (iso x)) nodes) = length nodes <-> forall x, In x nodes -> (0 < iso x)%R).
  { rewrite <- (map_length (fun x => sign_type (iso x)) nodes), count_all. split.
    - intros H x Ix. apply sign_outside. apply H. apply in_map_iff. eauto.
    - intros H y Iy. apply in_map_iff in Iy. destruct Iy as (x & <- & Ix). apply sign_outside. auto. }
  destruct (Nat.eqb_spec (count Inside (map (fun x => sign_type (iso x)) nodes)) (length nodes)) as [E|E].
  - left. split; [reflexivity|]. apply I. exact E.
  - destruct (Nat.eqb_spec (count Outside (map (fun x => sign_type (iso x)) nodes)) (length nodes)) as [E'|E'].
    + right. left. split; [reflexivity|]. apply O. exact E'.
    + right. right. split; [reflexivity|]. split; intros C; [apply E, I, C|apply E', O, C].
Qed.

Lemma classify_iso_spec : forall D iso e, let nodes := map (box_world e) (corners D) in
  fst (classify_iso D iso e) = corner_type iso nodes /\ (snd (classify_iso D iso e) = true <-> fst (classify_iso D iso e) = Boundary).
Proof.
  intros D iso e nodes. unfold classify_iso, corner_type, nodes. rewrite map_map, map_length.
  destruct (Nat.eqb _ _); [split; [reflexivity|split; intros H; discriminate]|].
  destruct (Nat.eqb _ _); (split; [reflexivity|]); split; intros H; try discriminate; reflexivity.
Qed.

Lemma tag_cells_spec : forall g iso, valid_grid g -> 
  let ns := subdivisions g in let n := Z.to_nat (number_of_cells ns) in
  let zero c := exists x, In x (map (node_at_index g) (node_indices_of ns (Z.of_nat c))) /\ iso x = 0%R in
  (exists c, c < n /\ zero c) /\ tag_cells_from_implicit_surface g iso = UndefinedBehaviour \/
  (forall c, c < n -> ~ zero c) /\
  tag_cells_from_implicit_surface g iso = Ok (map (fun c => corner_type iso (map (node_at_index g) (node_indices_of ns (Z.of_nat c)))) (seq 0 n)).
Proof.
  intros g iso Hg ns n zero. unfold tag_cells_from_implicit_surface. fold ns n.
  set (step := fun (s : result (list cell_type)) (cell : nat) => match s with | Ok l => _ | _ => _ end).
  set (ct := fun c => corner_type iso (map (node_at_index g) (node_indices_of ns (Z.of_nat c)))).
  assert (Z0 : forall c, existsb (fun m => (3 <=? type_value (sign_type (iso (node_at_index g m))))%Z) (node_indices_of ns (Z.of_nat c)) = true <-> zero c).
  { intros c. rewrite existsb_exists. split.
    - intros (m & I & E). exists (node_at_index g m). split; [apply in_map; exact I|]. apply sign_boundary.
      destruct (sign_type (iso (node_at_index g m))); try discriminate E. reflexivity.
    - intros (x & I & E). apply in_map_iff in I. destruct I as (m & <- & I). exists m. split; [exact I|].
      apply sign_boundary in E. rewrite E. reflexivity. }
  assert (St : forall l c, step (Ok l) c = if existsb (fun m => (3 <=? type_value (sign_type (iso (node_at_index g m))))%Z) (node_indices_of ns (Z.of_nat c))
      then UndefinedBehaviour else Ok (l ++ [ct c])).
  { intros l c. unfold step, ct, corner_type. rewrite map_map, map_length. reflexivity. }
  assert (UB : forall l, fold_left step l UndefinedBehaviour = UndefinedBehaviour) by (induction l as [|x l IH]; [reflexivity|exact IH]).
  assert (G : forall k a l, (exists c, a <= c < a + k /\ zero c) /\ fold_left step (seq a k) (Ok l) = UndefinedBehaviour \/
     (forall c, a <= c < a + k -> ~ zero c) /\ fold_left step (seq a k) (Ok l) = Ok (l ++ map ct (seq a k))).
  { induction k as [|k IH]; intros a l.
    - right. split; [intros; lia|]. simpl. rewrite app_nil_r. reflexivity.
    - cbn [seq fold_left map]. rewrite St. destruct (existsb _ _) eqn:E.
      + left. split; [exists a; split; [lia|apply Z0; exact E]|apply UB].
      + destruct (IH (S a) (l ++ [ct a])) as [[(c & Hc & Zc) R]|[N R]].
        * left. split; [exists c; split; [lia|exact Zc]|exact R].
        * right. split.
          -- intros c Hc. destruct (Nat.eq_dec c a) as [->|]; [|apply N; lia]. intros C. apply Z0 in C. congruence.
          -- rewrite R, <- app_assoc. reflexivity. }
  destruct (G n 0 []) as [[(c & Hc & Zc) R]|[N R]].
  - left. split; [exists c; split; [lia|exact Zc]|exact R].
  - right. split; [intros c Hc; apply N; lia|exact R].
Qed.

(** * Types of points *)
Definition bits (u i o b : bool) : Z :=
  Z.lor (if u then type_value Undefined else 0) (Z.lor (if i then type_value Inside else 0) (Z.lor (if o then type_value Outside else 0) (if b then type_value Boundary else 0)))%Z.
Definition is (ty t : cell_type) : bool := type_eqb ty t.

Lemma bits_step : forall u i o b t, Z.lor (bits u i o b) (type_value t) =
  bits (u || is t Undefined) (i || is t Inside) (o || is t Outside) (b || is t Boundary).
Proof. intros [] [] [] [] []; reflexivity. Qed.

Lemma bits_fold : forall (type_of : Z -> option cell_type) cells u i o b,
  fold_left (fun acc c => match acc, type_of c with Some z, Some t => Some (Z.lor z (type_value t)) | _, _ => None end) cells (Some (bits u i o b)) =
  if forallb (fun c => match type_of c with Some _ => true | None => false end) cells then
    let has ty := existsb (fun c => match type_of c with Some t => is t ty | None => false end) cells in
    Some (bits (u || has Undefined) (i || has Inside) (o || has Outside) (b || has Boundary))
  else None.
Proof.
  intros type_of. assert (N : forall cells, fold_left (fun acc c => match acc, type_of c with Some z, Some t => Some (Z.lor z (type_value t)) | _, _ => None end) cells None = None)
    by (induction cells as [|c cells IH]; [reflexivity|exact IH]).
  induction cells as [|c cells IH]; intros u i o b; cbn [fold_left forallb existsb].
  - rewrite !orb_false_r. reflexivity.
  - destruct (type_of c) as [t|]; [|apply N]. rewrite bits_step, IH. cbn [andb].
    destruct (forallb _ cells); [|reflexivity]. cbv zeta. rewrite !orb_assoc. reflexivity.
Qed.

Lemma bits_test : forall u i o b,
  negb (Z.land (bits u i o b) (type_value Boundary) =? 0)%Z = b /\
  negb (Z.land (bits u i o b) (type_value Inside) =? 0)%Z = i /\
  negb (Z.land (bits u i o b) (type_value Outside) =? 0)%Z = o.
Proof. intros [] [] [] []; repeat split. Qed.
