(** Proofs for C107: the nodes inside, and meshes with the same skin. *)

From Coq Require Import ZArith Reals Lra Lia.
From Coquelicot Require Import Coquelicot.
From Coq Require Import List Arith Bool Permutation.
From Verif Require Import GridGeoModel ShapeModel ShapeSpec LinAlg LinAlgProofs BarycentricModel MappingSpec MappingProofs TensorModel TensorSpec
  MaterialModel MaterialSpec MaterialProofs SparseModel SparseProofs Sums HyperModel HyperSpec HyperProofs HyperProofs2 HyperProperties
  EnergySpec EnergyProofs PatchSpec PatchProofs PatchProofs2 PatchProperties RemeshSpec RemeshProofs.
Import ListNotations.
Open Scope R_scope.

Section Inner.
Context (d : domain).
Hypothesis Sd : solid d.
Hypothesis KD : kind d = Tetrahedron_Linear \/ kind d = Hexahedron_Linear.
Let N := length (positions d).

Lemma moved_solid z : field N 3 z -> solid (moved d z).
Proof.
  intros [Lz Fz]. destruct Sd as (WF & CD & _). split; [|split; [exact CD|split; [reflexivity|exact Fz] ] ].
  unfold well_formed in *. cbn [connectivity positions kind moved]. rewrite Lz. exact WF.
Qed.
Lemma linear_patchable z : patchable (moved d z).
Proof. unfold patchable. cbn [kind moved]. destruct KD as [-> | ->]; exact I. Qed.
Lemma around_link z p k : field N 3 z -> (k < 3)%nat -> around d z p k = shares (moved d z) (link d p) k.
Proof. intros Fz Hk. exact (around_shares (moved d z) (moved_solid z Fz) p k (linear_patchable z) Hk). Qed.
Lemma around_interior z p k : field N 3 z -> (k < 3)%nat -> interior d p -> around d z p k = 0.
Proof. intros Fz Hk I. rewrite around_link by assumption. unfold shares. apply paired_shares; [intros i; apply site_length, moved_solid, Fz|exact Hk|exact I]. Qed.

Lemma built_row (h : nat -> list R) p : (p < N)%nat -> nth p (map h (seq 0 N)) [] = h p.
Proof. intros Hp. rewrite (nth_indep _ [] (h 0%nat)) by (rewrite map_length, seq_length; exact Hp). rewrite map_nth, seq_nth by exact Hp. reflexivity. Qed.
Lemma built_field (h : nat -> list R) : (forall p, (p < N)%nat -> length (h p) = 3%nat) -> field N 3 (map h (seq 0 N)).
Proof. intros H. split; [rewrite map_length, seq_length; reflexivity|]. apply Forall_forall. intros v Hv. apply in_map_iff in Hv. destruct Hv as (p & <- & Hp). apply in_seq in Hp. apply H. lia. Qed.
Lemma field_nth z p : field N 3 z -> (p < N)%nat -> length (nth p z []) = 3%nat.
Proof. intros [L F] Hp. apply (proj1 (Forall_forall _ _) F), nth_In. rewrite L. exact Hp. Qed.

Lemma inner_volume x y : field N 3 x -> field N 3 y -> (forall p, (p < N)%nat -> interior d p \/ nth p y [] = nth p x []) -> signed_volume d y = signed_volume d x.
Proof.
  intros Fx Fy H. set (h := fun i p => if Nat.ltb p i then nth p y [] else nth p x []). set (mix := fun i => map (h i) (seq 0 N)).
  assert (Hh : forall i p, (p < N)%nat -> length (h i p) = 3%nat) by (intros i p Hp; unfold h; destruct (Nat.ltb p i); apply field_nth; assumption).
  assert (Fm : forall i, field N 3 (mix i)) by (intros i; apply built_field; intros p Hp; apply Hh; exact Hp).
  assert (S : forall i, (i <= N)%nat -> signed_volume d (mix i) = signed_volume d (mix 0%nat)).
  { induction i as [|i IH]; intros Hi; [reflexivity|]. rewrite <- IH by lia. 
    rewrite (one_node d Sd (mix i) (mix (S i)) i); [|fold N; lia|apply Fm|apply Fm|].
    - destruct (H i ltac:(lia)) as [I|E].
      + unfold sum3. rewrite !(around_interior (mix i) i) by (first [exact I|apply Fm|lia]). ring.
      + assert (Z : forall k, entries (mix (S i)) i k - entries (mix i) i k = 0).
        { intros k. unfold entries, mix. rewrite !built_row by lia. unfold h. rewrite (proj2 (Nat.ltb_lt i (S i))) by lia. rewrite (proj2 (Nat.ltb_ge i i)) by lia. rewrite E. ring. }
        unfold sum3. rewrite !Z. ring.
    - intros p k Np. unfold entries, mix. destruct (Nat.lt_ge_cases p N) as [Hp|Hp].
      + rewrite !built_row by exact Hp. unfold h. destruct (Nat.ltb_spec p i), (Nat.ltb_spec p (S i)); try lia; reflexivity.
      + rewrite !(nth_overflow (map _ _)) by (rewrite map_length, seq_length; exact Hp). reflexivity. }
  assert (E0 : mix 0%nat = x).
  { apply (nth_ext _ _ [] []); [rewrite (proj1 (Fm 0%nat)), (proj1 Fx); reflexivity|]. intros p Hp. rewrite (proj1 (Fm 0%nat)) in Hp. unfold mix. rewrite built_row by exact Hp. reflexivity. }
  assert (E1 : mix N = y).
  { apply (nth_ext _ _ [] []); [rewrite (proj1 (Fm N)), (proj1 Fy); reflexivity|]. intros p Hp. rewrite (proj1 (Fm N)) in Hp. unfold mix. rewrite built_row by exact Hp. unfold h. rewrite (proj2 (Nat.ltb_lt p N)) by exact Hp. reflexivity. }
  rewrite <- E0, <- E1. apply S. lia.
Qed.

Definition bump (z : list (list R)) (p k : nat) : list (list R) := map (fun q => if Nat.eqb q p then map (fun c => entries z q c + if Nat.eqb c k then 1 else 0) [0; 1; 2]%nat else nth q z []) (seq 0 N).
Lemma bump_volume z p k : field N 3 z -> (p < N)%nat -> (k < 3)%nat -> signed_volume d (bump z p k) = signed_volume d z + around d z p k.
Proof.
  intros Fz Hp Hk. rewrite (one_node d Sd z (bump z p k) p Hp); [|apply Fz|unfold bump; rewrite map_length, seq_length; reflexivity|].
  - f_equal. unfold entries at 1, bump. rewrite built_row by exact Hp. rewrite Nat.eqb_refl. destruct k as [|[|[|] ] ]; try lia; unfold sum3; cbn [nth map Nat.eqb]; ring.
  - intros q c Hq. unfold entries, bump. destruct (Nat.lt_ge_cases q N) as [Hl|Hl].
    + rewrite built_row by exact Hl. rewrite (proj2 (Nat.eqb_neq q p)) by exact Hq. reflexivity.
    + rewrite (nth_overflow z) by (rewrite (proj1 Fz); exact Hl). rewrite (nth_overflow (map _ _)) by (rewrite map_length, seq_length; exact Hl). reflexivity.
Qed.
Lemma inner_around x y p k : field N 3 x -> field N 3 y -> (forall p, (p < N)%nat -> interior d p \/ nth p y [] = nth p x []) -> (p < N)%nat -> (k < 3)%nat -> around d y p k = around d x p k.
Proof.
  intros Fx Fy H Hp Hk. pose proof (bump_volume x p k Fx Hp Hk) as A. pose proof (bump_volume y p k Fy Hp Hk) as B. rewrite (inner_volume x y Fx Fy H) in B.
  assert (FB : forall z, field N 3 z -> field N 3 (bump z p k)) by (intros z Fz; apply built_field; intros q Hq; destruct (Nat.eqb q p); [reflexivity|apply field_nth; assumption]).
  assert (E : signed_volume d (bump y p k) = signed_volume d (bump x p k)); [|lra].
  apply inner_volume; [apply FB, Fx|apply FB, Fy|]. intros q Hq. destruct (H q Hq) as [I|E]; [left; exact I|right]. unfold bump. rewrite !built_row by exact Hq. unfold entries. rewrite E. reflexivity.
Qed.
End Inner.

(** ** Meshes with the same skin *)
Lemma skin_shares d skin p k : solid d -> is_skin d skin -> (k < 3)%nat -> shares d (link d p) k = shares d (skin p) k.
Proof. intros Sd S Hk. destruct (S p) as (covered & P & PC). exact (shares_split d _ _ covered k Sd Hk P PC). Qed.
Lemma link_outside d p : solid d -> (length (positions d) <= p)%nat -> link d p = [].
Proof.
  intros Sd Hp. unfold link. assert (G : forall l, (forall row, In row l -> In row (connectivity d)) -> flat_map (fun row => flat_map (fun a => if Nat.eqb (nth a row 0%nat) p then map (fun f => (corner (kind d) a, map (fun i => nth i row 0%nat) f)) (faces_around (kind d) a) else []) (seq 0 (NumberOfNodes (kind d)))) l = []).
  { induction l as [|row l IH]; intros H; [reflexivity|]. cbn [flat_map]. rewrite IH by (intros r Hr; apply H; right; exact Hr). rewrite app_nil_r. destruct (solid_row d row Sd (H row (or_introl eq_refl))) as [Hl HF].
    assert (Q : forall m s, (s + m <= NumberOfNodes (kind d))%nat -> flat_map (fun a => if Nat.eqb (nth a row 0%nat) p then map (fun f => (corner (kind d) a, map (fun i => nth i row 0%nat) f)) (faces_around (kind d) a) else []) (seq s m) = []).
    { induction m as [|m IHm]; intros s Hs; [reflexivity|]. cbn [seq flat_map]. rewrite IHm by lia. assert (B : (nth s row 0 < length (positions d))%nat) by (apply (proj1 (Forall_forall _ _) HF), nth_In; lia).
      destruct (Nat.eqb_spec (nth s row 0%nat) p); [lia|reflexivity]. }
    apply Q. lia. }
  apply G. auto.
Qed.
Lemma skin_outside d skin p : solid d -> is_skin d skin -> (length (positions d) <= p)%nat -> skin p = [].
Proof. intros Sd S Hp. destruct (S p) as (covered & P & _). rewrite (link_outside d p Sd Hp) in P. apply Permutation_nil in P. destruct (app_eq_nil _ _ P) as [E _]. exact E. Qed.
Lemma same_shares d d' skin p k : same_skin d d' skin -> shares d' (skin p) k = shares d (skin p) k.
Proof.
  intros (_ & _ & H). unfold shares. apply Rsum_ext. intros [b f] Hf. f_equal. apply share_ext. intros i Hi. exact (proj2 (H p (b, f) Hf) i Hi).
Qed.
Lemma long_sum (g : nat -> R) a b : (forall p, (a <= p)%nat -> g p = 0) -> (a <= b)%nat -> Rsum (map g (seq 0 b)) = Rsum (map g (seq 0 a)).
Proof.
  intros H Hab. replace b with (a + (b - a))%nat by lia. rewrite seq_app, map_app, Rsum_app. rewrite (Rsum_zero _ g (seq (0 + a) (b - a))); [ring|]. intros p Hp. apply in_seq in Hp. apply H. lia.
Qed.
Lemma same_enclosed d d' skin : solid d -> solid d' -> same_skin d d' skin -> enclosed d' skin = enclosed d skin.
Proof.
  intros Sd Sd' SS. pose proof SS as (A & B & H). unfold enclosed. f_equal.
  set (g := fun p => sum3 (fun k => nth k (site d p) 0 * shares d (skin p) k)).
  assert (E : forall p, sum3 (fun k => nth k (site d' p) 0 * shares d' (skin p) k) = g p).
  { intros p. unfold g. destruct (skin p) as [|f l] eqn:Es.
    - unfold shares, sum3. cbn [map Rsum fold_right]. ring.
    - rewrite <- Es. apply sum3_ext. intros k _. rewrite (same_shares d d' skin p k SS). rewrite (proj1 (H p f ltac:(rewrite Es; left; reflexivity))). reflexivity. }
  rewrite (Rsum_ext _ _ g) by (intros p _; apply E).
  assert (Z : forall p, skin p = [] -> g p = 0) by (intros p Es; unfold g; rewrite Es; unfold shares, sum3; cbn [map Rsum fold_right]; ring).
  set (a := length (positions d)). set (b := length (positions d')).
  rewrite <- (long_sum g a (max a b)), <- (long_sum g b (max a b)); [reflexivity| | | |]; try lia; intros p Hp; apply Z; [exact (skin_outside d' skin p Sd' B Hp)|exact (skin_outside d skin p Sd A Hp)].
Qed.
Lemma volume_enclosed d s skin : solid d -> numbered_alike d s -> patchable d -> is_skin d skin -> rest_volume d = s * enclosed d skin.
Proof.
  intros Sd NA PA SK. rewrite (rest_signed d s NA). f_equal. pose proof (triple_volume d Sd (positions d)) as T. unfold enclosed.
  rewrite (Rsum_ext _ _ (fun p => sum3 (fun k => nth k (site d p) 0 * shares d (skin p) k))) in T.
  - lra.
  - intros p Hp. apply in_seq in Hp. apply sum3_ext. intros k Hk. rewrite (around_shares d Sd p k PA Hk), (skin_shares d skin p k Sd SK Hk). f_equal. unfold entries, site. f_equal. apply nth_indep. lia.
Qed.
