(** Proofs for C98: forces of the tractions. *)

From Coq Require Import ZArith Reals Lra Lia.
From Coquelicot Require Import Coquelicot.
From Coq Require Import List Arith Bool Permutation.
From Flocq Require Import Core.Raux.
From Verif Require Import GridGeoModel ShapeModel ShapeSpec ShapeProofs ShapeFieldProofs LinAlg LinAlgProofs RectModel RectProofs BarycentricModel MappingSpec MappingProofs
  TensorSpec MaterialSpec Sums StabilityProofs2 HyperSpec HyperProofs TractionModel TractionSpec TractionProofs TractionProperties PatchSpec PatchProofs PatchProofs2 LoadSpec LoadProofs.
Import ListNotations.
Open Scope R_scope.

Lemma norm_unit n : length n = 3%nat -> vdot n n = 1 -> norm n = 1.
Proof. intros L H. unfold norm. destruct (length3 n L) as (a & b & c & ->). rewrite <- sqrt_1. f_equal. rewrite <- H. cbn. ring. Qed.

Lemma map2_seq (A : Type) (h : A -> R -> R) (x0 : A) row ls : length row = length ls -> map2 h row ls = map (fun a => h (nth a row x0) (nth a ls 0)) (seq 0 (length row)).
Proof.
  revert ls. induction row as [|x row IH]; intros [|l ls] H; try discriminate; [reflexivity|]. cbn [map2 length seq map nth]. f_equal.
  rewrite <- seq_shift, map_map. apply IH. cbn in H. congruence.
Qed.
Lemma outline_in e a f i : In f (outline_from e a) -> In i f -> (i < NumberOfNodes e)%nat.
Proof.
  unfold outline_from. intros Hf Hi. apply in_flat_map in Hf. destruct Hf as (j & _ & Hf).
  destruct (Nat.eqb (nth j (outline e) 0%nat) a); [|destruct Hf]. destruct Hf as [<-|[]].
  assert (I : In i (outline e)) by (apply in_app_iff in Hi; rewrite <- (firstn_skipn j (outline e)); apply in_app_iff; tauto). clear Hi.
  destruct e; cbn in I; repeat (destruct I as [<-|I]; [cbn; lia|]); destruct I.
Qed.

Lemma facing_shares e nodes n a k : length nodes = NumberOfNodes e -> Forall (fun p => length p = 3%nat) nodes -> facing e nodes n -> (a < NumberOfNodes e)%nat -> (k < 3)%nat ->
  vector_weight e nodes a k = surface_shares e nodes a k.
Proof.
  intros Ln Fn F Ha Hk. destruct e; try (destruct F; fail); cbn [NumberOfNodes] in Ln, Ha.
  - destruct nodes as [|p0 [|p1 [|p2 [|]]]]; try discriminate. repeat (apply Forall_cons_iff in Fn; destruct Fn as [?L Fn]).
    destruct (length3 p0 L) as (x0 & y0 & z0 & ->), (length3 p1 L0) as (x1 & y1 & z1 & ->), (length3 p2 L1) as (x2 & y2 & z2 & ->). apply triangle_shares; assumption.
  - apply straight_shares; [tauto|exact (proj1 F)|exact Ha|exact Hk].
  - destruct nodes as [|p0 [|p1 [|p2 [|p3 [|]]]]]; try discriminate. repeat (apply Forall_cons_iff in Fn; destruct Fn as [?L Fn]).
    destruct (length3 p0 L) as (x0 & y0 & z0 & ->), (length3 p1 L0) as (x1 & y1 & z1 & ->), (length3 p2 L1) as (x2 & y2 & z2 & ->), (length3 p3 L2) as (x3 & y3 & z3 & ->). apply quad_shares; assumption.
  - apply straight_shares; [tauto|exact (proj1 F)|exact Ha|exact Hk].
Qed.

Section Surface.
Context (d s : domain) (n : list R).
Hypothesis Sd : solid d.
Hypothesis D3 : dim s = 3%nat.
Hypothesis PS : positions s = positions d.
Hypothesis WF : well_formed s.
Hypothesis C2 : CanonicalDimension (kind s) = 2%nat.
Hypothesis L3 : length n = 3%nat.
Hypothesis U : vdot n n = 1.
Hypothesis FC : forall row, In row (connectivity s) -> facing (kind s) (nodes_of_element s row) n.

Lemma surface_nodes row : In row (connectivity s) -> length (nodes_of_element s row) = NumberOfNodes (kind s) /\ Forall (fun p => length p = 3%nat) (nodes_of_element s row) /\
  length row = NumberOfNodes (kind s) /\ Forall (fun i => (i < length (positions d))%nat) row.
Proof.
  intros Hr. destruct (proj1 (Forall_forall _ _) WF row Hr) as [HL F]. rewrite PS in F. split; [unfold nodes_of_element; rewrite map_length; exact HL|]. split; [|split; assumption].
  apply Forall_forall. intros p Hp. unfold nodes_of_element in Hp. apply in_map_iff in Hp. destruct Hp as (i & <- & Hi). rewrite PS.
  apply (proj1 (Forall_forall _ _) (proj2 (proj2 (proj2 Sd)))), nth_In. exact (proj1 (Forall_forall _ _) F i Hi).
Qed.
Lemma facing_area row g k : In row (connectivity s) -> In g (gauss_nodes (kind s)) -> (k < 3)%nat ->
  nth k n 0 * area_factor s (nodes_of_element s row) (fst g) = nth k (normal_at (kind s) (nodes_of_element s row) (fst g)) 0.
Proof.
  intros Hr Hg Hk. destruct (surface_nodes row Hr) as (Ln & Fn & _).
  destruct (facing_normal (kind s) _ n g Ln Fn L3 (FC row Hr) Hg) as (c & Hc & E).
  unfold area_factor. rewrite D3, C2. cbn [Nat.eqb andb]. fold (normal_at (kind s) (nodes_of_element s row) (fst g)). rewrite E.
  assert (N : norm (vscale c n) = c).
  { unfold vscale. rewrite (map_ext (fun x => c * x) (fun x => x * c)) by (intros; ring). rewrite norm_scale, (norm_unit n L3 U), Rabs_pos_eq by exact Hc. ring. }
  rewrite N, Rabs_pos_eq by exact Hc. destruct (length3 n L3) as (x & y & z & En). rewrite En. destruct k as [|[|[|]]]; try lia; cbn; ring.
Qed.
Lemma surface_weight p k : (k < 3)%nat -> nth k n 0 * node_weight s p = shares d (surface_link s p) k.
Proof.
  intros Hk. unfold node_weight.
  rewrite (Rsum_ext _ _ (fun q => snd q * (fun i => if Nat.eqb i p then 1 else 0) (fst q))) by (intros q _; destruct (Nat.eqb (fst q) p); ring).
  rewrite (weights_integral s (fun i => if Nat.eqb i p then 1 else 0) WF). unfold surface_integral, shares, surface_link.
  rewrite Rsum_flat_map, <- Rsum_scal_l. apply Rsum_ext. intros row Hr. destruct (surface_nodes row Hr) as (Ln & Fn & HL & HF).
  transitivity (Rsum (map (fun a => if Nat.eqb (nth a row 0%nat) p then vector_weight (kind s) (nodes_of_element s row) a k else 0) (seq 0 (NumberOfNodes (kind s))))).
  - transitivity (Rsum (map (fun a => Rsum (map (fun g => if Nat.eqb (nth a row 0%nat) p then snd g * nth k (normal_at (kind s) (nodes_of_element s row) (fst g)) 0 * nth a (L (kind s) (fst g)) 0 else 0) (gauss_nodes (kind s)))) (seq 0 (NumberOfNodes (kind s))))).
    + rewrite Rsum_swap, <- Rsum_scal_l. apply Rsum_ext. intros g Hg. rewrite <- (facing_area row g k Hr Hg Hk).
      rewrite (map2_seq _ _ 0%nat) by (rewrite length_L; exact HL). rewrite HL, <- !Rsum_scal_l. apply Rsum_ext. intros a _. destruct (Nat.eqb (nth a row 0%nat) p); ring.
    + apply Rsum_ext. intros a _. destruct (Nat.eqb (nth a row 0%nat) p); [reflexivity|]. apply Rsum_zero. reflexivity.
  - rewrite Rsum_flat_map. apply Rsum_ext. intros a Ha. apply in_seq in Ha. destruct (Nat.eqb (nth a row 0%nat) p); [|reflexivity].
    rewrite (facing_shares _ _ n a k Ln Fn (FC row Hr)) by (try exact Hk; lia). unfold surface_shares. rewrite map_map. apply Rsum_ext. intros f Hf. rewrite share_map.
    f_equal. apply share_ext. intros i Hi. pose proof (outline_in _ _ _ _ Hf Hi) as B. unfold nodes_of_element, site.
    rewrite (nth_indep _ _ (nth 0%nat (positions s) [])) by (rewrite map_length; lia). rewrite (map_nth (fun i => nth i (positions s) [])), PS.
    apply nth_indep. apply (proj1 (Forall_forall _ _) HF), nth_In. lia.
Qed.
End Surface.

(** ** States *)
Lemma constant_loaded c events s : surface_mesh c -> - EPSILON < slope c < EPSILON -> run_events c events = Some s -> loaded c 1 s.
Proof.
  intros (WF & Ht & HC) [Hs1 Hs2] R. unfold run_events in R.
  assert (I : init c = increment_load c {| nodal_forces := repeat (repeat 0 (dim (surface c))) (length (positions (surface c)));
              total_load := 0; is_constant := true; current_traction := repeat 0 (dim (surface c));
              steps_since_last_increment := steps_before_increment c |} (traction c)).
  { unfold init. rewrite !Rlt_bool_true by assumption. reflexivity. }
  set (s0 := {| nodal_forces := _ |}) in I.
  assert (LD : loaded c 0 s0).
  { split; [|split]; cbn [s0 nodal_forces total_load].
    + split; [apply repeat_length|]. apply Forall_forall. intros r Hr. apply repeat_spec in Hr. subst r. apply repeat_length.
    + intros j k. assert (Z : forall n k, nth k (repeat 0 n) 0 = 0). { clear. induction n; intros [|k]; simpl; auto. }
      assert (Z2 : forall n D j, nth j (repeat (repeat 0 D) n) [] = repeat 0 D \/ nth j (repeat (repeat 0 D) n) [] = []).
      { clear. induction n; intros D [|j]; simpl; auto. }
      destruct (Z2 (length (positions (surface c))) (dim (surface c)) j) as [-> | ->]; [rewrite Z; ring|destruct k; simpl; ring].
    + ring. }
  destruct (increment_loaded c s0 (traction c) 0 1 (conj WF (conj Ht HC)) LD ltac:(lra)) as (s1 & E & LD1 & IC & _).
  { clear. induction (traction c) as [|x t IH]; [reflexivity|]. cbn [map]. rewrite <- IH. f_equal. ring. }
  rewrite Rplus_0_l in LD1. rewrite I, E in R.
  assert (K : forall l, fold_left (fun s e => match s with Some s => handleEvent c s e | None => None end) l (Some s1) = Some s1).
  { induction l as [|e l IH]; [reflexivity|]. cbn [fold_left]. unfold handleEvent at 2. rewrite IC. cbn [s0 is_constant]. destruct e; exact IH. }
  rewrite K in R. injection R as <-. exact LD1.
Qed.
Lemma applied_loaded c s : surface_mesh c -> fully_applied c s -> loaded c 1 s.
Proof.
  intros SM (events & R & [Hs|[Hs CT]]); [exact (constant_loaded c events s SM Hs R)|].
  destruct (run_after c events SM Hs) as (s' & R' & A). rewrite R in R'. injection R' as <-. destruct A as (_ & LD & CT' & _). cbv zeta in LD, CT'.
  set (lambda := Rmin 1 _) in *. destruct (Req_dec (norm (traction c)) 0) as [Z|NZ]; [exact (loaded_zero c lambda 1 s Z LD)|].
  assert (E : lambda = 1); [|rewrite E in LD; exact LD].
  assert (0 <= lambda). { apply Rmin_glb; [lra|]. apply Rmult_le_pos; [|apply pos_INR]. apply Rle_trans with EPSILON; [|exact Hs]. left. unfold EPSILON. apply Rinv_0_lt_compat, IZR_lt. reflexivity. }
  pose proof (f_equal norm CT') as E. rewrite CT, norm_scale, Rabs_pos_eq in E by assumption. apply (Rmult_eq_reg_r (norm (traction c))); [lra|exact NZ].
Qed.

Lemma add_vectors_entries D : forall f g : list (list R), length f = length g -> Forall (fun r => length r = D) f -> Forall (fun r => length r = D) g ->
  exists f', add_vectors f g = Some f' /\ length f' = length f /\ Forall (fun r => length r = D) f' /\ forall p c, nth c (nth p f' []) 0 = nth c (nth p f []) 0 + nth c (nth p g []) 0.
Proof.
  induction f as [|x f IH]; intros [|y g] HL Ff Fg; try discriminate.
  - exists []. repeat split; [constructor|]. intros [|p] [|c]; cbn; ring.
  - apply Forall_cons_iff in Ff, Fg. destruct Ff as [Lx Ff], Fg as [Ly Fg]. cbn in HL. destruct (IH g ltac:(congruence) Ff Fg) as (f' & E & L' & F' & N).
    exists (vadd x y :: f'). cbn [add_vectors]. rewrite E. split; [reflexivity|]. split; [cbn; congruence|]. split.
    + constructor; [unfold vadd; rewrite LinAlgProofs.map2_length; congruence|exact F'].
    + intros [|p] c; [|exact (N p c)]. cbn [nth]. clear - Lx Ly. subst D. revert y c Ly. induction x as [|u x IH]; intros [|v y] c L; try discriminate; destruct c as [|c]; cbn; try ring. apply IH. cbn in L. congruence.
Qed.

(** All the loads together. *)
Lemma loads_sum (d : domain) (pull : list R -> list R) : solid d ->
  forall (loads : list (config * state)) f, Forall (fun l => loads_part d pull (fst l) /\ length (traction (fst l)) = 3%nat /\ fully_applied (fst l) (snd l)) loads ->
  field (length (positions d)) 3 f ->
  exists f', add_loads (map snd loads) (Some f) = Some f' /\ field (length (positions d)) 3 f' /\
    forall p c, nth c (nth p f' []) 0 = nth c (nth p f []) 0 + Rsum (map (fun l => nth c (traction (fst l)) 0 * node_weight (surface (fst l)) p) loads).
Proof.
  intros Sd. induction loads as [|[c st] loads IH]; intros f H Ff.
  - exists f. split; [reflexivity|]. split; [exact Ff|]. intros; cbn; ring.
  - apply Forall_cons_iff in H. destruct H as [(P & Lt & FA) H]. cbn [fst snd] in *. destruct P as (D3 & PS & WF & C2 & _).
    assert (SM : surface_mesh c) by (split; [exact WF|]; split; [congruence|exact C2]).
    destruct (applied_loaded c st SM FA) as ([LN FN] & N & _). rewrite PS in LN. rewrite D3 in FN. destruct Ff as [LF FF].
    destruct (add_vectors_entries 3 f (nodal_forces st) ltac:(congruence) FF FN) as (f1 & E & L1 & F1 & N1).
    destruct (IH f1 H ltac:(split; [congruence|exact F1])) as (f' & E' & F' & N'). exists f'. split.
    + unfold add_loads in *. cbn [map fold_left snd]. unfold addForce at 2. rewrite E. exact E'.
    + split; [exact F'|]. intros p k. rewrite N', N1, N. cbn [map Rsum fold_right fst]. rewrite Rmult_1_l. unfold Rsum. ring.
Qed.
Lemma traction_of_nth s P n c : (c < 3)%nat -> nth c (traction_of s P n) 0 = s * sum3 (fun k => P c k * nth k n 0).
Proof. intros Hc. destruct c as [|[|[|]]]; try lia; reflexivity. Qed.

(** The forces of the loads are the stress times the shares of the loaded faces. *)
Lemma loads_shares (d : domain) s P : solid d ->
  forall (loads : list (config * state)) p c, (c < 3)%nat -> Forall (fun l => loads_part d (traction_of s P) (fst l)) loads ->
  Rsum (map (fun l => nth c (traction (fst l)) 0 * node_weight (surface (fst l)) p) loads) =
  s * sum3 (fun k => P c k * shares d (flat_map (fun l => surface_link (surface (fst l)) p) loads) k).
Proof.
  intros Sd. induction loads as [|[cf st] loads IH]; intros p c Hc H; [unfold sum3, shares; cbn; ring|].
  apply Forall_cons_iff in H. destruct H as [(D3 & PS & WF & C2 & n & L3 & U & T & FC) H]. cbn [fst snd] in *.
  cbn [map flat_map fst]. change (Rsum (?x :: ?l)) with (x + Rsum l). rewrite (IH p c Hc H), T, (traction_of_nth s P n c Hc).
  transitivity (s * sum3 (fun k => P c k * (nth k n 0 * node_weight (surface cf) p)) + s * sum3 (fun k => P c k * shares d (flat_map (fun l => surface_link (surface (fst l)) p) loads) k)); [unfold sum3; ring|].
  rewrite (sum3_ext _ (fun k => P c k * shares d (surface_link (surface cf) p) k)) by (intros k Hk; rewrite (surface_weight d (surface cf) n Sd D3 PS WF C2 L3 U FC p k Hk); reflexivity).
  unfold shares. rewrite <- Rmult_plus_distr_l. f_equal. unfold sum3. rewrite !map_app, !Rsum_app. ring.
Qed.
