(** Proofs for C100. *)

From Coq Require Import ZArith Reals Lra Lia Permutation Sorted.
From Coq Require Import List Arith Bool.
From Verif Require Import GridModel GridSpec GridProofs GridGeoModel GridGeoSpec GridGeoProofs ShapeModel Sums FictModel FictSpec
  FictProofs FictProofs2 FictProofs3 FictProofs4 FictProofs5 FictProofs6 FictProofs8 FictProofs9 FictProofs10 FictProperties FictProperties2 FictProperties3
  FictProperties4 DistributionModel DistributionSpec.
Import ListNotations.
Open Scope R_scope.

(** ** The table *)
Definition holds (m : list (R * list nat)) (r : R) (c : nat) : Prop := exists l, In (r, l) m /\ In c l.

Lemma emplace_holds m q x : StronglySorted Rlt (map fst m) -> forall r c, holds (emplace m q x) r c <-> (r = q /\ c = x) \/ holds m r c.
Proof.
  induction m as [|[k l] m IH]; intros S r c; cbn [emplace].
  - unfold holds. cbn. split.
    + intros (l & [[= <- <-]|[]] & [<-|[]]). left. split; reflexivity.
    + intros [[-> ->]|(l & [] & _)]. exists [x]. split; [left; reflexivity|left; reflexivity].
  - cbn [map fst] in S. apply StronglySorted_inv in S. destruct S as [S F].
    assert (C : forall m', holds ((k, l) :: m') r c <-> (r = k /\ In c l) \/ holds m' r c).
    { intros m'. unfold holds. cbn. split; [intros (l' & [[= <- <-]|H] & Hc); [left; split; [reflexivity|exact Hc]|right; exists l'; split; assumption]|].
      intros [[-> Hc]|(l' & H & Hc)]; [exists l; split; [left; reflexivity|exact Hc]|exists l'; split; [right; exact H|exact Hc]]. }
    destruct (Rlt_dec q k) as [Lt|Ge].
    + unfold holds at 1. cbn [In]. split.
      * intros (l' & [[= <- <-]|H] & Hc); [destruct Hc as [<-|[]]; left; split; reflexivity|right; exists l'; split; assumption].
      * intros [[-> ->]|(l' & H & Hc)]; [exists [x]; split; [left; reflexivity|left; reflexivity]|exists l'; split; [right; exact H|exact Hc]].
    + destruct (Rlt_dec k q) as [Lt'|Ge'].
      * rewrite C, (IH S), C. tauto.
      * assert (k = q) by lra. subst k. rewrite C. unfold holds. cbn [In]. split.
        -- intros (l' & [[= <- <-]|H] & Hc).
           ++ apply in_app_or in Hc. destruct Hc as [Hc|[<-|[]]]; [right; left; split; [reflexivity|exact Hc]|left; split; reflexivity].
           ++ right. right. exists l'. split; assumption.
        -- intros [[-> ->]|[[-> Hc]|(l' & H & Hc)]].
           ++ exists (l ++ [x]). split; [left; reflexivity|apply in_or_app; right; left; reflexivity].
           ++ exists (l ++ [x]). split; [left; reflexivity|apply in_or_app; left; exact Hc].
           ++ exists l'. split; [right; exact H|exact Hc].
Qed.
Lemma emplace_keys m q x k : In k (map fst (emplace m q x)) -> k = q \/ In k (map fst m).
Proof.
  induction m as [|[r l] m IH]; cbn [emplace]; [cbn; intuition|]. destruct (Rlt_dec q r); [cbn; intuition|]. destruct (Rlt_dec r q); cbn; intuition.
Qed.
Lemma emplace_sorted m q x : StronglySorted Rlt (map fst m) -> StronglySorted Rlt (map fst (emplace m q x)).
Proof.
  induction m as [|[r l] m IH]; intros S; cbn [emplace]; [repeat constructor|]. pose proof S as S0. cbn [map fst] in S. apply StronglySorted_inv in S. destruct S as [S F].
  destruct (Rlt_dec q r) as [Lt|Ge].
  - cbn [map fst]. constructor; [exact S0|]. constructor; [exact Lt|]. apply Forall_forall. intros k Hk. rewrite Forall_forall in F. specialize (F k Hk). lra.
  - destruct (Rlt_dec r q) as [Lt'|Ge']; [|exact S0]. cbn [map fst]. constructor; [exact (IH S)|]. apply Forall_forall. intros k Hk.
    destruct (emplace_keys _ _ _ _ Hk) as [->|H]; [exact Lt'|]. rewrite Forall_forall in F. exact (F k H).
Qed.
Lemma sorted_snoc l x : StronglySorted lt l -> (forall y, In y l -> (y < x)%nat) -> StronglySorted lt (l ++ [x]).
Proof.
  induction l as [|a l IH]; intros S H; [repeat constructor|]. apply StronglySorted_inv in S. destruct S as [S F]. cbn. constructor.
  - apply IH; [exact S|]. intros y Hy. apply H. right. exact Hy.
  - apply Forall_app. split; [exact F|]. constructor; [|constructor]. apply H. left. reflexivity.
Qed.
Lemma emplace_lists m q x : Forall (fun e => snd e <> [] /\ StronglySorted lt (snd e)) m -> (forall r c, holds m r c -> (c < x)%nat) ->
  Forall (fun e : R * list nat => snd e <> [] /\ StronglySorted lt (snd e)) (emplace m q x).
Proof.
  induction m as [|[r l] m IH]; intros F H; cbn [emplace].
  - constructor; [|constructor]. split; [discriminate|repeat constructor].
  - pose proof F as F0. apply Forall_cons_iff in F. destruct F as [[F1 F2] F]. cbn [snd] in F1, F2. destruct (Rlt_dec q r).
    + constructor; [split; [discriminate|repeat constructor]|exact F0].
    + destruct (Rlt_dec r q).
      * constructor; [split; assumption|]. apply IH; [exact F|]. intros r' c (l' & Hl & Hc). apply (H r' c). exists l'. split; [right; exact Hl|exact Hc].
      * constructor; [|exact F]. cbn [snd]. split; [destruct l; discriminate|]. apply sorted_snoc; [exact F2|]. intros y Hy. apply (H r y). exists l. split; [left; reflexivity|exact Hy].
Qed.

Definition add (f : nat -> option (option R)) (m : option (list (R * list nat))) (c : nat) : option (list (R * list nat)) :=
  match m, f c with Some m, Some (Some ratio) => Some (emplace m ratio c) | Some m, Some None => Some m | _, _ => None end.
Lemma table_sorts (f : nat -> option (option R)) n : (forall c, (c < n)%nat -> f c <> None) ->
  exists m, fold_left (add f) (seq 0 n) (Some []) = Some m /\ sorts_by (fun c r => f c = Some (Some r)) n m.
Proof.
  induction n as [|n IH]; intros H.
  - exists []. split; [reflexivity|]. split; [constructor|split; [constructor|]]. intros r c. split; [intros (l & [] & _)|intros [K _]; lia].
  - destruct IH as (m & E & S1 & S2 & S3); [intros c Hc; apply H; lia|]. rewrite seq_S, fold_left_app, E. cbn [fold_left plus add].
    destruct (f n) as [[r|]|] eqn:Ef; [| |exfalso; exact (H n (Nat.lt_succ_diag_r n) Ef)].
    + eexists. split; [reflexivity|]. assert (B : forall r' c, holds m r' c -> (c < n)%nat) by (intros r' c Hh; apply S3 in Hh; tauto).
      split; [apply emplace_sorted, S1|]. split; [apply emplace_lists; assumption|]. intros r' c. change (holds (emplace m r n) r' c <-> (c < S n)%nat /\ f c = Some (Some r')).
      rewrite (emplace_holds m r n S1 r' c). unfold holds. rewrite S3. split.
      * intros [[-> ->]|[Hc Hf]]; split; [lia|exact Ef|lia|exact Hf].
      * intros [Hc Hf]. destruct (Nat.eq_dec c n) as [->|]; [left; split; [congruence|reflexivity]|right; split; [lia|exact Hf]].
    + eexists. split; [reflexivity|]. split; [exact S1|]. split; [exact S2|]. intros r' c. rewrite S3. split.
      * intros [Hc Hf]. split; [lia|exact Hf].
      * intros [Hc Hf]. split; [|exact Hf]. destruct (Nat.eq_dec c n) as [->|]; [congruence|lia].
Qed.
Lemma sorts_by_ext (P Q : nat -> R -> Prop) n m : (forall c r, (c < n)%nat -> P c r <-> Q c r) -> sorts_by P n m -> sorts_by Q n m.
Proof. intros H (S1 & S2 & S3). split; [exact S1|]. split; [exact S2|]. intros r c. rewrite S3. split; intros [Hc K]; (split; [exact Hc|apply (H c r Hc); exact K]). Qed.

(** ** Rounding *)
Lemma Int_part_range x : IZR (Int_part x) <= x < IZR (Int_part x) + 1.
Proof. destruct (base_Int_part x). lra. Qed.
Lemma round_spec d w q : d <> 0%nat -> 0 <= w -> (std_round (w * 10 ^ d) / 10 ^ d = q <-> rounded d w q).
Proof.
  intros Hd Hw. destruct d as [|d]; [congruence|]. set (D := S d). assert (P : 0 < 10 ^ D) by (apply pow_lt; lra). assert (X : 0 <= w * 10 ^ D) by (apply Rmult_le_pos; lra).
  unfold std_round. destruct (Rlt_dec (w * 10 ^ D) 0) as [C|_]; [lra|]. unfold rounded. fold D. pose proof (Int_part_range (w * 10 ^ D + / 2)) as I. split.
  - intros <-. exists (Int_part (w * 10 ^ D + / 2)). split; [reflexivity|lra].
  - intros (k & -> & Hk). replace (Int_part (w * 10 ^ D + / 2)) with k; [reflexivity|].
    assert (A : (k < Int_part (w * 10 ^ D + / 2) + 1)%Z) by (apply lt_IZR; rewrite plus_IZR; lra).
    assert (B : (Int_part (w * 10 ^ D + / 2) < k + 1)%Z) by (apply lt_IZR; rewrite plus_IZR; lra). lia.
Qed.
Lemma whole_rounds d (k : Z) : rounded d (IZR k) (IZR k).
Proof.
  destruct d as [|d]; [reflexivity|]. cbn [rounded]. set (D := S d). assert (P : 0 < 10 ^ D) by (apply pow_lt; lra).
  exists (k * 10 ^ Z.of_nat D)%Z. rewrite mult_IZR, <- pow_IZR. replace (IZR 10) with 10 by reflexivity. split; [field; lra|lra].
Qed.
Lemma rounded_unique d r q q' : rounded d r q -> rounded d r q' -> q = q'.
Proof.
  destruct d as [|d]; cbn [rounded]; [congruence|]. intros (k & -> & Hk) (k' & -> & Hk'). replace k' with k; [reflexivity|].
  assert (A : (k < k' + 1)%Z) by (apply lt_IZR; rewrite plus_IZR; lra). assert (B : (k' < k + 1)%Z) by (apply lt_IZR; rewrite plus_IZR; lra). lia.
Qed.

(** ** The ratio of a cell *)
Definition weight (comp : component) (c : nat) (t : tree (cell_type * R)) : R := get_cell_weight (fun p => leaf_type comp (c, p)) [] (tree_map snd t).
Lemma cell_volume_positive g : valid_grid g -> 0 < cell_volume g.
Proof.
  intros [_ H]. unfold cell_volume. induction g as [|a g IH]; simpl; [lra|]. apply Forall_cons_iff in H. destruct H as [[H1 H2] H]. apply Rmult_lt_0_compat; [|apply IH, H].
  unfold ax_H. apply Rdiv_lt_0_compat; [assumption|]. apply IZR_lt. lia.
Qed.
Lemma weight_kept g classify n comp c t : valid_grid g -> (length g = 2 \/ length g = 3)%nat -> forest comp = subdivide_intersected_cells g classify n ->
  nth_error (forest comp) c = Some t -> forall r, kept_part g comp c r <-> r = weight comp c t.
Proof.
  intros Hg HD Ef Et r. pose proof (cell_volume_positive g Hg) as V. rewrite Ef in Et.
  assert (W : forall l, leaves_of_cell (forest comp) c l -> weight comp c t * cell_volume g = kept_volume g (leaf_type comp) l).
  { intros l Hl. rewrite Ef in Hl. exact (C33_cell_weight g classify n (leaf_type comp) c t l Hg HD Et Hl). }
  split.
  - intros (l & Hl & E). apply (Rmult_eq_reg_r (cell_volume g)); [|lra]. rewrite (W l Hl). exact E.
  - intros ->. exists (map (pair c) (leaf_paths [] t)). assert (L : leaves_of_cell (forest comp) c (map (pair c) (leaf_paths [] t))).
    { rewrite Ef. split.
      - apply FinFun.Injective_map_NoDup; [|apply leaf_paths_NoDup]. intros x y Q. inversion Q. reflexivity.
      - intros [top p]. rewrite in_map_iff. cbn [fst]. split.
        + intros (q & Q & I). inversion Q; subst. split; [|reflexivity]. apply in_leaf_paths in I. destruct I as (w & a & -> & Ea). rewrite app_nil_r. exists a, t. split; assumption.
        + intros [(a & s & Es & Ea) ->]. cbn [fst snd] in *. rewrite Et in Es. inversion Es; subst s. exists p. split; [reflexivity|].
          apply in_leaf_paths. exists p, a. rewrite app_nil_r. split; [reflexivity|exact Ea]. }
    split; [exact L|exact (W _ L)].
Qed.
Lemma weight_positive g classify n comp c t : valid_grid g -> (length g = 2 \/ length g = 3)%nat -> forest comp = subdivide_intersected_cells g classify n ->
  nth_error (forest comp) c = Some t -> 0 <= weight comp c t <= 1.
Proof.
  intros Hg HD Ef Et. rewrite Ef in Et. destruct (cell_of_forest g classify n c t Et) as (e & T). set (cells := subdivide_intersected_cells g classify n) in *.
  unfold weight. set (F := fun p => if retained (leaf_type comp (c, p)) then leaf_weight cells (c, p) else 0).
  assert (Hv : forall v a, subtree t v = Some (Leaf a) -> leaf_weight cells (c, v) = snd a).
  { intros v a Ha. unfold leaf_weight, leaf_data. cbn [fst snd]. rewrite Et, Ha. destruct a. reflexivity. }
  rewrite (cell_weight_sum _ (tree_map snd t) [] F).
  2:{ intros v a Ha. rewrite app_nil_r. apply subtree_map_leaf in Ha. destruct Ha as (b & Hb & ->). unfold F. rewrite (Hv v b Hb). reflexivity. }
  rewrite leaf_paths_map.
  assert (B : forall p, In p (leaf_paths [] t) -> 0 <= F p <= leaf_weight cells (c, p)).
  { intros p I. apply in_leaf_paths in I. destruct I as (w & a & -> & Ea). rewrite app_nil_r. unfold F. rewrite (Hv w a Ea).
    assert (L : leaf cells (c, w) (fst a, snd a)) by (exists t; destruct a; auto).
    destruct (C33_weight_is_volume_ratio g classify n (c, w) (fst a) (snd a) Hg HD L) as (_ & Wp & _). destruct (retained _); lra. }
  assert (S1 : Rsum (map (fun p => leaf_weight cells (c, p)) (leaf_paths [] t)) = 1).
  { rewrite T. rewrite T in Hv. apply (weights_sum (length g) (classify c) HD n e 1 []). intros v a Ha. rewrite app_nil_r. exact (Hv v a Ha). }
  rewrite <- S1. clear - B. unfold Rsum. induction (leaf_paths [] t) as [|p l IH]; cbn; [lra|]. pose proof (B p (or_introl eq_refl)). assert (forall q, In q l -> 0 <= F q <= leaf_weight cells (c, q)) by (intros q Hq; apply B; right; exact Hq).
  specialize (IH H0). lra.
Qed.

(** ** After the creation with an implicit surface *)
Lemma ratio_of_weight g classify n comp d c t ty : valid_grid g -> (length g = 2 \/ length g = 3)%nat -> forest comp = subdivide_intersected_cells g classify n ->
  nth_error (forest comp) c = Some t -> nth_error (cells_types (surface comp)) c = Some ty ->
  (ty = Outside -> weight comp c t = 0) -> (ty = Inside -> weight comp c t = 1) -> ty <> Undefined ->
  forall q, cell_ratio comp d c = Some (Some q) <-> volume_ratio g comp d c q.
Proof.
  intros Hg HD Ef Et Ey H0 H1 NU q.
  assert (V : volume_ratio g comp d c q <-> rounded d (weight comp c t) q).
  { unfold volume_ratio. split; [intros (r & K & Rd)|intros Rd; exists (weight comp c t); split; [|exact Rd]].
    - apply (weight_kept g classify n comp c t Hg HD Ef Et) in K. subst r. exact Rd.
    - apply (weight_kept g classify n comp c t Hg HD Ef Et). reflexivity. }
  rewrite V. unfold cell_ratio. rewrite Et, Ey. fold (weight comp c t).
  assert (X : forall a, rounded d (weight comp c t) a -> (Some (Some a) = Some (Some q) <-> rounded d (weight comp c t) q)).
  { intros a Ha. split; [intros [= <-]; exact Ha|]. intros Hq. rewrite (rounded_unique _ _ _ _ Ha Hq). reflexivity. }
  destruct ty; [congruence| | |].
  - apply X. rewrite H1 by reflexivity. exact (whole_rounds d 1).
  - apply X. rewrite H0 by reflexivity. exact (whole_rounds d 0).
  - apply X. destruct (Nat.eqb_spec d 0) as [->|Hd]; [reflexivity|]. apply round_spec; [exact Hd| |reflexivity].
    apply (weight_positive g classify n comp c t Hg HD Ef Et).
Qed.

Lemma cells_length g classify n comp : valid_grid g -> (length g = 2 \/ length g = 3)%nat -> forest comp = subdivide_intersected_cells g classify n ->
  length (forest comp) = Z.to_nat (number_of_cells (subdivisions g)).
Proof. intros Hg HD ->. destruct (C35_subdivision_is_valid g classify n Hg HD) as (_ & _ & L & _). lia. Qed.

Lemma created_iso g iso n threshold s comp : valid_grid g -> (length g = 2 \/ length g = 3)%nat -> create_grid_from_iso_surface g iso n threshold s = Some (Ok comp) ->
  forest comp = subdivide_intersected_cells g (fun _ => classify_iso (length g) iso) n /\
  forall c, (c < Z.to_nat (number_of_cells (subdivisions g)))%nat -> exists t ty, nth_error (forest comp) c = Some t /\ nth_error (cells_types (surface comp)) c = Some ty /\
    (ty = Outside -> weight comp c t = 0) /\ (ty = Inside -> weight comp c t = 1) /\ ty <> Undefined.
Proof.
  intros Hg HD Hc. unfold create_grid_from_iso_surface in Hc.
  destruct (tag_cells_spec g iso Hg) as [[_ E]|[NZ E]]; rewrite E in Hc; [discriminate|].
  set (types := map (fun c => corner_type iso (map (node_at_index g) (node_indices_of (subdivisions g) (Z.of_nat c)))) (seq 0 (Z.to_nat (number_of_cells (subdivisions g))))) in *.
  destruct (Nat.eqb (length g) 3 && _)%bool; [discriminate|].
  set (cl := fun _ : nat => classify_iso (length g) iso) in *. set (cells := subdivide_intersected_cells g cl n).
  pose proof (C35_subdivision_is_valid g cl n Hg HD) as Hv. fold cells in Hv.
  destruct (finish_grid_ok g cl n threshold (Surface types (triangles_of_cell s)) Hg HD) as (st & comp' & Er & Ef & S1 & S2 & S3 & _ & S5).
  rewrite Hc in Ef. inversion Ef; subst comp'. clear Ef. fold cells in Er, S2, S3, S5. split; [exact S2|].
  assert (Init : forall p, a_leaf cells p -> initial_type cells p = fst (classify_iso (length g) iso (element g p)))
    by (intros p Lp; apply (leaf_initial g cl n p Hg HD Lp)).
  assert (NU : forall p, a_leaf cells p -> initial_type cells p <> Undefined).
  { intros p Lp. rewrite Init by exact Lp. apply (C39_subdivision (length g) iso (element g p) HD). }
  assert (Fin : forall p, a_leaf cells p -> leaf_type comp p = fst (classify_iso (length g) iso (element g p))).
  { intros p Lp. rewrite S3, (tag_nothing _ g cells _ st Hv Er NU p Lp). apply Init, Lp. }
  intros i Hi. destruct (cell_index_back g i Hg Hi) as (c & Hcc & Ec).
  pose proof (flat_inverse g Hg) as FI. destruct FI as [FI _]. destruct (FI c Hcc) as [_ Inv].
  assert (El : element g (i, []) = cell_box g c) by (unfold element; cbn [fst snd sub_box]; rewrite <- Ec, Inv; reflexivity).
  assert (Nodes : forall x, In x (map (box_world (cell_box g c)) (corners (length g))) <-> corner_of g c x).
  { intros x. rewrite (element_nodes g c Hg HD Hcc). rewrite cell_nodes_correct; [apply nodes_are_corners; assumption|exact Hg|]. apply (FI c Hcc). }
  set (ty := corner_type iso (map (node_at_index g) (node_indices_of (subdivisions g) (cell_index_at (subdivisions g) c)))).
  assert (T : nth_error (cells_types (surface comp)) i = Some ty).
  { rewrite S1. cbn [cells_types]. unfold types. rewrite nth_error_map, (nth_error_nth' _ 0%nat) by (rewrite seq_length; exact Hi). rewrite seq_nth by exact Hi.
    cbn [option_map]. rewrite Nat.add_0_l, <- Ec. reflexivity. }
  pose proof (corner_type_correct iso g c Hg HD Hcc) as TC. fold ty in TC.
  destruct (nth_error (forest comp) i) as [t|] eqn:Et.
  2:{ apply nth_error_None in Et. rewrite S2 in Et. destruct Hv as (_ & _ & L & _). lia. }
  exists t, ty. split; [reflexivity|]. split; [exact T|].
  destruct (C39_subdivision (length g) iso (cell_box g c) HD) as (A1 & A2 & A3 & A4).
  assert (Tree : forall k, fst (classify_iso (length g) iso (cell_box g c)) = k -> k <> Boundary -> t = Leaf (k, 1) /\ leaf_type comp (i, []) = k).
  { intros k Hk NB. assert (B : snd (classify_iso (length g) iso (cell_box g c)) = false).
    { apply not_true_is_false. intros B. apply A3 in B. congruence. }
    assert (Tt : t = Leaf (k, 1)).
    { rewrite S2 in Et. unfold cells, subdivide_intersected_cells in Et. rewrite nth_error_map, (nth_error_nth' _ 0%nat) in Et by (rewrite seq_length; exact Hi).
      rewrite seq_nth in Et by exact Hi. cbn [option_map] in Et. rewrite Nat.add_0_l, <- Ec, Inv in Et. injection Et as <-. unfold cl.
      destruct n; cbn [subdivide]; destruct (classify_iso (length g) iso (cell_box g c)) as [k' b]; cbn [fst snd] in Hk, B; subst; reflexivity. }
    split; [exact Tt|]. rewrite Fin, El; [exact Hk|]. rewrite <- S2. exists (k, 1), t. split; [exact Et|]. rewrite Tt. reflexivity. }
  split; [|split].
  - intros Ho. rewrite Ho in TC. cbn in TC. destruct (Tree Outside) as [-> L]; [apply A2; intros x I; apply TC, Nodes, I|discriminate|].
    unfold weight. cbn. rewrite L. reflexivity.
  - intros Ho. rewrite Ho in TC. cbn in TC. destruct (Tree Inside) as [-> L]; [apply A1; intros x I; apply TC, Nodes, I|discriminate|].
    unfold weight. cbn. rewrite L. reflexivity.
  - intros Hu. rewrite Hu in TC. exact TC.
Qed.

(** ** Number of entries *)
Lemma strongly_sorted_nodup (l : list R) : StronglySorted Rlt l -> NoDup l.
Proof.
  induction 1 as [|a l S IH F]; constructor; [|exact IH]. intros H. rewrite Forall_forall in F. specialize (F a H). lra.
Qed.
Lemma few_entries (value : nat -> R -> Prop) n m d : sorts_by value n m -> (forall c q, (c < n)%nat -> value c q -> exists k : nat, (k <= 10 ^ d)%nat /\ q = INR k / 10 ^ d) ->
  (length m <= 10 ^ d + 1)%nat.
Proof.
  intros (S1 & S2 & S3) H. rewrite <- (map_length fst m), <- (seq_length (10 ^ d + 1) 0), <- (map_length (fun k => INR k / 10 ^ d) (seq 0 (10 ^ d + 1))).
  apply NoDup_incl_length; [apply strongly_sorted_nodup, S1|]. intros q Hq. apply in_map_iff in Hq. destruct Hq as ([r l] & E & I). cbn in E. subst r.
  rewrite Forall_forall in S2. destruct (S2 _ I) as [NE _]. cbn in NE. destruct l as [|c l]; [congruence|].
  destruct (proj1 (S3 q c)) as [Hc V]; [exists (c :: l); split; [exact I|left; reflexivity]|]. destruct (H c q Hc V) as (k & Hk & ->). apply in_map_iff. exists k. split; [reflexivity|].
  apply in_seq. lia.
Qed.
Lemma rounded_range d r q : d <> 0%nat -> 0 <= r <= 1 -> rounded d r q -> exists k : nat, (k <= 10 ^ d)%nat /\ q = INR k / 10 ^ d.
Proof.
  intros Hd Hr. destruct d as [|d]; [congruence|]. cbn [rounded]. set (D := S d). intros (k & -> & Hk). assert (P : 0 < 10 ^ D) by (apply pow_lt; lra).
  assert (A : 0 <= r * 10 ^ D <= 10 ^ D) by (split; [apply Rmult_le_pos; lra|rewrite <- (Rmult_1_l (10 ^ D)) at 2; apply Rmult_le_compat_r; lra]).
  assert (K0 : (-1 < k)%Z) by (apply lt_IZR; cbn; lra). exists (Z.to_nat k). split.
  - assert (K1 : (k < Z.of_nat (10 ^ D) + 1)%Z).
    { apply lt_IZR. rewrite plus_IZR, <- INR_IZR_INZ, pow_INR. replace (INR 10) with 10 by (cbn; lra). lra. }
    lia.
  - rewrite INR_IZR_INZ, Z2Nat.id by lia. reflexivity.
Qed.
