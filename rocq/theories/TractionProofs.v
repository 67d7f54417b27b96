(** Proofs about the traction force field. *)

From Coq Require Import Reals Lra Lia.
From Coquelicot Require Import Coquelicot.
From Coq Require Import List Arith Bool.
From Flocq Require Import Core.Raux.
From Verif Require Import GridGeoModel ShapeModel ShapeSpec ShapeProofs ShapeFieldProofs LinAlg RectModel RectProofs LinAlgProofs
  BarycentricModel Sums MappingModel MappingSpec MappingProofs TractionModel TractionSpec.
Import ListNotations.
Open Scope R_scope.

(** * The contributions, independently of the traction *)

Definition weights (d : domain) : list (nat * R) :=
  flat_map (fun node_indices =>
    flat_map (fun g : R * R * list R =>
      let '(w, detJ, N) := g in map2 (fun node n => (node, w * detJ * n)) node_indices N)
      (gauss_nodes_of d (nodes_of_element d node_indices))) (connectivity d).
Definition scaled (t : list R) (p : nat * R) : nat * list R := (fst p, map (fun x => x * snd p) t).

Lemma map_flat_map : forall (A B C : Type) (f : B -> C) (g : A -> list B) l, map f (flat_map g l) = flat_map (fun a => map f (g a)) l.
Proof. induction l as [|a l IH]; simpl; [reflexivity|]. rewrite map_app, IH. reflexivity. Qed.

Lemma contributions_weights : forall d t, contributions d t = map (scaled t) (weights d).
Proof.
  intros d t. unfold contributions, weights. rewrite map_flat_map. apply flat_map_ext. intros row. rewrite map_flat_map.
  apply flat_map_ext. intros [[w detJ] N]. rewrite !map2_combine, map_map. apply map_ext. intros [node n]. unfold scaled. cbn [fst snd].
  rewrite map_map. f_equal. apply map_ext. intros x. ring.
Qed.

Lemma weights_valid : forall d, well_formed d -> Forall (fun p => (fst p < length (positions d))%nat) (weights d).
Proof.
  intros d WF. apply Forall_forall. intros p Hp. unfold weights in Hp. apply in_flat_map in Hp. destruct Hp as (row & Hrow & Hp).
  apply in_flat_map in Hp. destruct Hp as ([[w detJ] N] & _ & Hp). rewrite map2_combine in Hp. apply in_map_iff in Hp.
  destruct Hp as ([node n] & <- & Hin). cbn [fst snd]. apply in_combine_l in Hin.
  destruct (proj1 (Forall_forall _ _) WF row Hrow) as [_ F]. exact (proj1 (Forall_forall _ _) F node Hin).
Qed.

Lemma gauss_position_length : forall e g, In g (gauss_nodes e) -> length (fst g) = CanonicalDimension e.
Proof.
  intros e. apply Forall_forall. destruct e; cbv [gauss_nodes]; repeat (apply Forall_cons || apply Forall_nil); reflexivity.
Qed.

(** Any weighted sum over the contributions is a surface integral. *)
Lemma weights_integral : forall d (g : nat -> R), well_formed d ->
  Rsum (map (fun p => snd p * g (fst p)) (weights d)) =
  surface_integral d (fun row xi => Rsum (map2 (fun node l => g node * l) row (L (kind d) xi))).
Proof.
  intros d g WF. unfold weights, surface_integral. rewrite Rsum_flat_map. apply Rsum_ext. intros row _.
  rewrite Rsum_flat_map. unfold gauss_nodes_of. rewrite map_map. apply Rsum_ext. intros q _.
  rewrite !map2_combine, map_map, <- Rsum_scal_l. apply Rsum_ext. intros [node n] _. cbn [fst snd]. ring.
Qed.

Lemma weights_total : forall d, well_formed d -> Rsum (map snd (weights d)) = area d.
Proof.
  intros d WF. rewrite (Rsum_ext _ _ (fun p => snd p * (fun _ : nat => 1) (fst p))) by (intros; ring).
  rewrite (weights_integral d (fun _ => 1) WF). unfold area, surface_integral. apply Rsum_ext. intros row Hrow. apply Rsum_ext.
  intros g Hg. f_equal. destruct (proj1 (Forall_forall _ _) WF row Hrow) as [HL _].
  etransitivity; [|exact (partition_of_unity (kind d) (fst g) (gauss_position_length _ _ Hg))]. f_equal.
  assert (HL' : length row = length (L (kind d) (fst g))) by (rewrite length_L; exact HL). revert HL'. generalize (L (kind d) (fst g)) as ls.
  clear. induction row as [|x row IH]; intros [|l ls] H; try discriminate; [reflexivity|]. simpl in *. rewrite IH by congruence. f_equal. ring.
Qed.

(** * Adding to a vector of nodes *)

Lemma add_at_spec : forall f i x D, (i < length f)%nat -> Forall (fun v => length v = D) f -> length x = D ->
  exists f', add_at f i x = Some f' /\ field (length f) D f' /\
    (forall j c, nth c (nth j f' []) 0 = nth c (nth j f []) 0 + if Nat.eqb i j then nth c x 0 else 0).
Proof.
  induction f as [|y f IH]; intros i x D Hi HF Hx; [simpl in Hi; lia|]. inversion HF as [|? ? Hy HF']; subst.
  assert (A : forall a b : list R, length a = length b -> forall c, nth c (vadd a b) 0 = nth c a 0 + nth c b 0).
  { clear. unfold vadd. induction a as [|p a IH]; intros [|q b] H c; try discriminate.
    - destruct c; simpl; lra.
    - destruct c; simpl; [reflexivity|]. apply IH. simpl in H. congruence. }
  destruct i as [|i]; cbn [add_at].
  - exists (vadd y x :: f). split; [reflexivity|]. split.
    + split; [reflexivity|]. constructor; [|exact HF']. unfold vadd. rewrite LinAlgProofs.map2_length; congruence.
    + intros [|j] c; cbn [nth Nat.eqb]; [apply A; congruence|lra].
  - destruct (IH i x (length x)) as (f' & E & [L F] & N); [simpl in Hi; lia|exact HF'|reflexivity|].
    rewrite E. exists (y :: f'). split; [reflexivity|]. split.
    + split; [simpl; rewrite L; reflexivity|]. constructor; [exact Hy|exact F].
    + intros [|j] c; cbn [nth Nat.eqb]; [lra|apply N].
Qed.

Lemma add_all_spec : forall l f D, Forall (fun p => (fst p < length f)%nat /\ length (snd p) = D) l -> Forall (fun v => length v = D) f ->
  exists f', add_all f l = Some f' /\ field (length f) D f' /\
    (forall j c, nth c (nth j f' []) 0 = nth c (nth j f []) 0 + Rsum (map (fun p => if Nat.eqb (fst p) j then nth c (snd p) 0 else 0) l)).
Proof.
  unfold add_all. induction l as [|[i x] l IH]; intros f D Hl HF; cbn [fold_left].
  - exists f. split; [reflexivity|]. split; [split; [reflexivity|exact HF]|]. intros j c. simpl. lra.
  - inversion Hl as [|? ? [Hi Hx] Hl']; subst. cbn [fst snd] in *.
    destruct (add_at_spec f i x _ Hi HF eq_refl) as (f1 & E1 & [L1 F1] & N1). rewrite E1.
    destruct (IH f1 (length x)) as (f' & E & [L F] & N); [rewrite L1; exact Hl'|exact F1|].
    exists f'. split; [exact E|]. split; [split; [congruence|exact F]|]. intros j c. rewrite N, N1. cbn [map Rsum fold_right fst snd]. unfold Rsum. lra.
Qed.

Definition node_weight (d : domain) (j : nat) : R := Rsum (map (fun p => if Nat.eqb (fst p) j then snd p else 0) (weights d)).

Lemma nth_map0 : forall (f : R -> R) l c, f 0 = 0 -> nth c (map f l) 0 = f (nth c l 0).
Proof. intros f l c H. rewrite <- H at 1. apply map_nth. Qed.

(** increment_load adds t * node_weight at every node, and |t| * area to the total load. *)
Lemma increment_load_spec : forall c s t, well_formed (surface c) -> length t = dim (surface c) ->
  field (length (positions (surface c))) (dim (surface c)) (nodal_forces s) ->
  exists s', increment_load c s t = Some s' /\
    field (length (positions (surface c))) (dim (surface c)) (nodal_forces s') /\
    (forall j k, nth k (nth j (nodal_forces s') []) 0 = nth k (nth j (nodal_forces s) []) 0 + nth k t 0 * node_weight (surface c) j) /\
    total_load s' = total_load s + norm (map (fun x => x * area (surface c)) t) /\
    is_constant s' = is_constant s /\ current_traction s' = current_traction s /\
    steps_since_last_increment s' = steps_since_last_increment s.
Proof.
  intros c s t WF Ht [Lf Ff]. unfold increment_load. rewrite contributions_weights.
  destruct (add_all_spec (map (scaled t) (weights (surface c))) (nodal_forces s) (dim (surface c))) as (f' & E & [L F] & N).
  { apply Forall_forall. intros p Hp. apply in_map_iff in Hp. destruct Hp as (q & <- & Hq). cbn [scaled fst snd]. split.
    - rewrite Lf. exact (proj1 (Forall_forall _ _) (weights_valid _ WF) q Hq).
    - rewrite map_length. exact Ht. }
  { exact Ff. }
  rewrite E. eexists. split; [reflexivity|]. cbn [nodal_forces total_load is_constant current_traction steps_since_last_increment].
  split; [split; [congruence|exact F]|]. split; [|split; [|repeat split]].
  - intros j k. rewrite N. f_equal. rewrite map_map. unfold node_weight. rewrite <- Rsum_scal_l. apply Rsum_ext. intros p _. cbn [scaled fst snd].
    destruct (Nat.eqb (fst p) j); [|lra]. rewrite nth_map0 by ring. reflexivity.
  - f_equal. f_equal. rewrite <- (weights_total _ WF).
    assert (G : forall l a, length a = length t -> fold_left (fun load p => vadd load (snd p)) (map (scaled t) l) a = vadd a (map (fun x => x * Rsum (map snd l)) t)).
    { clear. induction l as [|p l IH]; intros a Ha; cbn [map fold_left Rsum fold_right].
      - unfold vadd. clear -Ha. revert t Ha. induction a as [|x a IH]; intros [|y t] H; try discriminate; [reflexivity|]. simpl. rewrite Rmult_0_r, Rplus_0_r. f_equal. apply IH. simpl in H. congruence.
      - assert (Hv : length (vadd a (snd (scaled t p))) = length t).
        { unfold vadd, scaled. cbn [snd]. rewrite LinAlgProofs.map2_length; rewrite ?map_length; congruence. }
        rewrite (IH _ Hv). cbn [scaled snd]. unfold vadd, Rsum. clear -Ha. revert t Ha. induction a as [|x a IH]; intros [|y t] H; try discriminate; [reflexivity|].
        simpl. f_equal; [ring|]. apply IH. simpl in H. congruence. }
    rewrite G by (rewrite repeat_length; symmetry; exact Ht). rewrite <- Ht. unfold vadd. clear. induction t as [|x t IH]; [reflexivity|].
    simpl. rewrite Rplus_0_l. f_equal. exact IH.
Qed.

(** * Norms *)
Lemma norm_scale : forall c v, norm (map (fun x => x * c) v) = Rabs c * norm v.
Proof.
  intros c v. unfold norm, squaredNorm, vdot.
  replace (Rsum (map2 Rmult (map (fun x => x * c) v) (map (fun x => x * c) v))) with (c * c * Rsum (map2 Rmult v v)).
  - rewrite sqrt_mult_alt by nra. rewrite <- (sqrt_Rsqr_abs c). reflexivity.
  - induction v as [|x v IH]; simpl; [lra|]. unfold Rsum in *. simpl. rewrite <- IH. lra.
Qed.
Lemma norm_nonneg : forall v, 0 <= norm v.
Proof. intros. apply sqrt_pos. Qed.
Lemma norm_zero : forall v, norm v = 0 -> forall c, nth c v 0 = 0.
Proof.
  intros v H. unfold norm in H. apply sqrt_eq_0 in H.
  2:{ unfold squaredNorm, vdot. clear. induction v as [|x v IH]; simpl; [lra|]. unfold Rsum in *. simpl. nra. }
  unfold squaredNorm, vdot in H. revert H. induction v as [|x v IH]; intros H c; [destruct c; reflexivity|].
  assert (P : 0 <= Rsum (map2 Rmult v v)). { clear. induction v as [|x v IH]; simpl; [lra|]. unfold Rsum in *. simpl. nra. }
  simpl in H. unfold Rsum in *. simpl in H. destruct c; simpl; [nra|]. apply IH. nra.
Qed.

Lemma gauss_weights_nonneg : forall e g, In g (gauss_nodes e) -> 0 <= snd g.
Proof.
  intros e. apply Forall_forall. destruct e; cbv [gauss_nodes]; repeat (apply Forall_cons || apply Forall_nil); cbv [snd]; try lra.
Qed.

Lemma area_nonneg : forall d, 0 <= area d.
Proof.
  intros d. unfold area, surface_integral.
  assert (P : forall (A : Type) (f : A -> R) l, (forall x, In x l -> 0 <= f x) -> 0 <= Rsum (map f l)).
  { clear. induction l as [|x l IH]; intros H; simpl; [lra|]. pose proof (H x (or_introl eq_refl)). specialize (IH (fun y Hy => H y (or_intror Hy))). lra. }
  apply P. intros row _. apply P. intros g Hg. rewrite Rmult_1_r. apply Rmult_le_pos; [exact (gauss_weights_nonneg _ _ Hg)|].
  unfold area_factor. destruct (_ && _)%bool; apply Rabs_pos.
Qed.

(** * Histories of events *)

(** State of the force field when the applied traction is lambda times the prescribed one. *)
Definition loaded (c : config) (lambda : R) (s : state) : Prop :=
  field (length (positions (surface c))) (dim (surface c)) (nodal_forces s) /\
  (forall j k, nth k (nth j (nodal_forces s) []) 0 = lambda * nth k (traction c) 0 * node_weight (surface c) j) /\
  total_load s = lambda * norm (traction c) * area (surface c).

Lemma loaded_zero : forall c lambda lambda' s, norm (traction c) = 0 -> loaded c lambda s -> loaded c lambda' s.
Proof.
  intros c lambda lambda' s Z (A & B & C). split; [exact A|]. split.
  - intros j k. rewrite B, (norm_zero _ Z k). ring.
  - rewrite C, Z. ring.
Qed.

Lemma increment_loaded : forall c s t lambda mu, surface_mesh c -> loaded c lambda s -> 0 <= mu ->
  t = map (fun x => x * mu) (traction c) ->
  exists s', increment_load c s t = Some s' /\ loaded c (lambda + mu) s' /\ is_constant s' = is_constant s /\
    current_traction s' = current_traction s /\ steps_since_last_increment s' = steps_since_last_increment s.
Proof.
  intros c s t lambda mu (WF & Ht & _) (A & B & C) Hmu Et.
  destruct (increment_load_spec c s t WF) as (s' & E & F & N & TL & I1 & I2 & I3); [rewrite Et, map_length; exact Ht|exact A|].
  exists s'. split; [exact E|]. split; [|repeat split; assumption]. split; [exact F|]. split.
  - intros j k. rewrite N, B, Et, nth_map0 by ring. ring.
  - rewrite TL, C, Et, map_map.
    rewrite (map_ext _ (fun x => x * (mu * area (surface c)))) by (intros; ring).
    rewrite norm_scale, Rabs_pos_eq by (apply Rmult_le_pos; [exact Hmu|apply area_nonneg]). ring.
Qed.

Lemma scale_add : forall (t : list R) a b, vadd (map (fun x => x * a) t) (map (fun x => x * b) t) = map (fun x => x * (a + b)) t.
Proof. intros t a b. unfold vadd. induction t as [|x t IH]; simpl; [reflexivity|]. rewrite IH. f_equal. ring. Qed.
Lemma scale_sub : forall (t : list R) a, vminus t (map (fun x => x * a) t) = map (fun x => x * (1 - a)) t.
Proof. intros t a. unfold vminus. induction t as [|x t IH]; simpl; [reflexivity|]. rewrite IH. f_equal. ring. Qed.
Lemma scale_zero : forall (t : list R) a, (forall c, nth c t 0 = 0) -> map (fun x => x * a) t = repeat 0 (length t).
Proof.
  induction t as [|x t IH]; intros a H; simpl; [reflexivity|]. f_equal; [specialize (H 0%nat); simpl in H; rewrite H; ring|].
  apply IH. intros c. exact (H (S c)).
Qed.

(** Invariant after k steps (the steps are the AnimateBegin events). *)
Definition after (c : config) (k : nat) (s : state) : Prop :=
  let lambda := Rmin 1 (slope c * INR (increments (steps_before_increment c) k)) in
  is_constant s = false /\ loaded c lambda s /\ current_traction s = map (fun x => x * lambda) (traction c) /\
  (lambda < 1 -> 0 < norm (traction c) ->
   steps_since_last_increment s = match k with O => steps_before_increment c | S k' => k' mod Nat.max 1 (steps_before_increment c) end).

Lemma increments_step : forall n k, (1 <= k)%nat ->
  increments n (S k) = if Nat.ltb (S ((k - 1) mod Nat.max 1 n)) (Nat.max 1 n) then increments n k else S (increments n k).
Proof.
  intros n [|k] Hk; [lia|]. cbn [increments]. replace (S k - 1)%nat with k by lia. set (m := Nat.max 1 n).
  assert (Hm : (1 <= m)%nat) by (unfold m; lia). pose proof (Nat.div_mod k m ltac:(lia)) as D. pose proof (Nat.mod_upper_bound k m ltac:(lia)) as U.
  destruct (Nat.ltb_spec (S (k mod m)) m) as [H|H].
  - f_equal. symmetry. apply (Nat.div_unique (S k) m (k / m) (S (k mod m))); lia.
  - f_equal. symmetry. apply (Nat.div_unique (S k) m (S (k / m)) 0); lia.
Qed.
Lemma mod_step : forall m k, (1 <= m)%nat -> (S k) mod m = if Nat.ltb (S (k mod m)) m then S (k mod m) else 0%nat.
Proof.
  intros m k Hm. pose proof (Nat.div_mod k m ltac:(lia)) as D. pose proof (Nat.mod_upper_bound k m ltac:(lia)) as U.
  destruct (Nat.ltb_spec (S (k mod m)) m) as [H|H]; symmetry.
  - apply (Nat.mod_unique (S k) m (k / m)); lia.
  - apply (Nat.mod_unique (S k) m (S (k / m))); lia.
Qed.
Lemma increments_mono : forall n k, (increments n k <= increments n (S k))%nat.
Proof.
  intros n [|k]; cbn [increments]; [lia|]. apply le_n_S. apply Nat.div_le_mono; lia.
Qed.

Lemma step : forall c k s, surface_mesh c -> EPSILON <= slope c -> after c k s ->
  exists s', handleEvent c s true = Some s' /\ after c (S k) s'.
Proof.
  intros c k s SM Hs (IC & LD & CT & CNT). unfold handleEvent. cbn [negb]. rewrite IC.
  assert (Hs0 : 0 < slope c). { apply Rlt_le_trans with EPSILON; [|exact Hs]. unfold EPSILON. apply Rinv_0_lt_compat, IZR_lt. reflexivity. }
  set (n := steps_before_increment c) in *. set (lambda := Rmin 1 (slope c * INR (increments n k))) in *.
  assert (Hl0 : 0 <= lambda). { apply Rmin_glb; [lra|]. apply Rmult_le_pos; [lra|apply pos_INR]. }
  assert (Hl1 : lambda <= 1) by apply Rmin_l.
  assert (NC : norm (current_traction s) = lambda * norm (traction c)) by (rewrite CT, norm_scale, Rabs_pos_eq by exact Hl0; reflexivity).
  pose proof (norm_nonneg (traction c)) as Hn.
  destruct (Rle_bool_spec (norm (traction c)) (norm (current_traction s))) as [Hsat|Hsat].
  - exists s. split; [reflexivity|]. rewrite NC in Hsat. unfold after. cbv zeta. fold n.
    set (lambda' := Rmin 1 (slope c * INR (increments n (S k)))). split; [exact IC|].
    destruct (Req_dec (norm (traction c)) 0) as [Z|NZ].
    + split; [exact (loaded_zero c _ _ s Z LD)|]. split; [|intros; lra].
      rewrite CT, !scale_zero by (apply norm_zero; exact Z). reflexivity.
    + assert (lambda = 1) by nra.
      assert (E : lambda' = lambda).
      { rewrite H. unfold lambda'. apply Rmin_left. assert (1 <= slope c * INR (increments n k)) by (rewrite <- H; apply Rmin_r).
        pose proof (le_INR _ _ (increments_mono n k)). apply Rle_trans with (1 := H0). apply Rmult_le_compat_l; lra. }
      rewrite E. split; [exact LD|]. split; [exact CT|]. intros; lra.
  - rewrite NC in Hsat.
    assert (Hpos : 0 < norm (traction c)) by nra. assert (Hlt : lambda < 1) by nra. specialize (CNT Hlt Hpos).
    assert (EL : lambda = slope c * INR (increments n k)).
    { unfold lambda in *. unfold Rmin in *. destruct (Rle_dec 1 (slope c * INR (increments n k))); lra. }
    set (m := Nat.max 1 n) in *. assert (Hm : (1 <= m)%nat) by (unfold m; lia).
    assert (CASE : (Nat.ltb (S (steps_since_last_increment s)) n = true /\ (1 <= k)%nat /\ increments n (S k) = increments n k /\
                    S (steps_since_last_increment s) = k mod m) \/
                   (Nat.ltb (S (steps_since_last_increment s)) n = false /\ increments n (S k) = S (increments n k) /\ k mod m = 0%nat)).
    { destruct k as [|k].
      - right. rewrite CNT. split; [apply Nat.ltb_ge; lia|]. split; [cbn [increments]; rewrite Nat.div_0_l by lia; reflexivity|apply Nat.mod_0_l; lia].
      - rewrite CNT. rewrite (increments_step n (S k)) by lia. replace (S k - 1)%nat with k by lia. fold m. rewrite (mod_step m k Hm).
        pose proof (Nat.mod_upper_bound k m ltac:(lia)) as U.
        destruct (Nat.ltb_spec (S (k mod m)) m) as [H|H].
        + left. split; [apply Nat.ltb_lt; unfold m in *; lia|]. repeat split. lia.
        + right. split; [apply Nat.ltb_ge; unfold m in *; lia|]. split; reflexivity. }
    destruct CASE as [(-> & Hk & EI & EM)|(-> & EI & EM)].
    + eexists. split; [reflexivity|]. unfold after. cbv zeta. fold n. rewrite EI. fold lambda.
      cbn [is_constant current_traction steps_since_last_increment]. split; [reflexivity|]. split; [exact LD|]. split; [exact CT|].
      intros _ _. exact EM.
    + cbv zeta. set (mu := if Rle_dec (lambda + slope c) 1 then slope c else 1 - lambda).
      assert (Emu : (if Rlt_bool (norm (traction c)) (norm (vadd (current_traction s) (map (fun x => x * slope c) (traction c))))
                     then vminus (traction c) (current_traction s) else map (fun x => x * slope c) (traction c)) = map (fun x => x * mu) (traction c)).
      { rewrite CT, scale_add, norm_scale, Rabs_pos_eq by lra. unfold mu. destruct (Rle_dec (lambda + slope c) 1) as [H|H].
        - rewrite Rlt_bool_false by nra. reflexivity.
        - rewrite Rlt_bool_true by nra. apply scale_sub. }
      rewrite Emu. assert (Hmu : 0 <= mu) by (unfold mu; destruct (Rle_dec (lambda + slope c) 1); lra).
      match goal with |- exists s', increment_load _ ?x _ = _ /\ _ => set (s0 := x) end.
      destruct (increment_loaded c s0 (map (fun x => x * mu) (traction c)) lambda mu SM) as (s' & E & LD' & A1 & A2 & A3); [exact LD|exact Hmu|reflexivity|].
      assert (EL' : Rmin 1 (slope c * INR (increments n (S k))) = lambda + mu).
      { rewrite EI, S_INR. unfold mu, Rmin. destruct (Rle_dec (lambda + slope c) 1); destruct (Rle_dec 1 _); lra. }
      exists s'. split; [exact E|]. unfold after. cbv zeta. fold n. rewrite EL'. split; [rewrite A1; reflexivity|]. split; [exact LD'|]. split.
      * rewrite A2. cbn [s0 current_traction]. rewrite CT. apply scale_add.
      * intros _ _. rewrite A3. cbn [s0 steps_since_last_increment]. symmetry. exact EM.
Qed.

Lemma initial : forall c, surface_mesh c -> EPSILON <= slope c -> exists s, init c = Some s /\ after c 0 s.
Proof.
  intros c (WF & Ht & HC) Hs. unfold init. rewrite (Rlt_bool_false (slope c) EPSILON) by exact Hs. rewrite andb_false_r.
  eexists. split; [reflexivity|]. unfold after. cbv zeta. cbn [increments INR is_constant current_traction steps_since_last_increment].
  rewrite Rmult_0_r, Rmin_right by lra. split; [reflexivity|]. split; [|split].
  - split; [|split]; cbn [nodal_forces total_load].
    + split; [apply repeat_length|]. apply Forall_forall. intros r Hr. apply repeat_spec in Hr. subst r. apply repeat_length.
    + intros j k. assert (Z : forall n k, nth k (repeat 0 n) 0 = 0). { clear. induction n; intros [|k]; simpl; auto. }
      assert (Z2 : forall n D j, nth j (repeat (repeat 0 D) n) [] = repeat 0 D \/ nth j (repeat (repeat 0 D) n) [] = []).
      { clear. induction n; intros D [|j]; simpl; auto. }
      destruct (Z2 (length (positions (surface c))) (dim (surface c)) j) as [-> | ->]; [rewrite Z; ring|destruct k; simpl; ring].
    + ring.
  - rewrite <- Ht. clear. induction (traction c) as [|x t IH]; [reflexivity|]. simpl. rewrite IH. f_equal. ring.
  - intros _ _. reflexivity.
Qed.

Definition count_true (events : list bool) : nat := length (filter (fun b => b) events).

Lemma run_after : forall c events, surface_mesh c -> EPSILON <= slope c ->
  exists s, run_events c events = Some s /\ after c (count_true events) s.
Proof.
  intros c events SM Hs. unfold run_events. destruct (initial c SM Hs) as (s0 & -> & A0).
  assert (G : forall events k s, after c k s -> exists s', fold_left (fun s e => match s with Some s => handleEvent c s e | None => None end) events (Some s) = Some s' /\ after c (k + count_true events) s').
  { clear events s0 A0. induction events as [|e events IH]; intros k s A; cbn [fold_left].
    - exists s. unfold count_true. simpl. rewrite Nat.add_0_r. split; [reflexivity|exact A].
    - destruct e.
      + destruct (step c k s SM Hs A) as (s1 & -> & A1). destruct (IH (S k) s1 A1) as (s' & E & A'). exists s'. split; [exact E|].
        unfold count_true in *. cbn [filter length]. rewrite Nat.add_succ_r. exact A'.
      + cbn [handleEvent negb]. destruct (IH k s A) as (s' & E & A'). exists s'. split; [exact E|exact A']. }
  exact (G events 0%nat s0 A0).
Qed.
