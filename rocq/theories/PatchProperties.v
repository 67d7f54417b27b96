(** C97: the patch test.  When the nodes of a mesh are moved by an affine map, the stress is the same everywhere: no force
    is applied on the nodes inside the mesh, and the force on the others is the stress times their share of the boundary. *)

From Coq Require Import ZArith Reals Lra Lia.
From Coquelicot Require Import Coquelicot.
From Coq Require Import List Arith Bool Permutation.
From Verif Require Import CorotModel CorotSpec CorotProperties.
From Verif Require Import GridGeoModel ShapeModel ShapeSpec LinAlg LinAlgProofs BarycentricModel MappingSpec MappingProofs TensorModel TensorSpec
  MaterialModel MaterialSpec MaterialProofs SparseModel SparseProofs Sums HyperModel HyperSpec HyperProofs HyperProofs2 HyperProperties
  EnergySpec EnergyProofs PatchSpec PatchProofs PatchProofs2 PatchProofs3 PatchProofs4 PatchProofs5.
Import ListNotations.
Open Scope R_scope.

Lemma same_row N f f' p : field N 3 f -> field N 3 f' -> (forall c, (c < 3)%nat -> entries f' p c = entries f p c) -> nth p f' [] = nth p f [].
Proof.
  intros [L F] [L' F'] H. destruct (Nat.lt_ge_cases p N) as [Hp|Hp].
  - assert (A : length (nth p f []) = 3%nat) by (apply (proj1 (Forall_forall _ _) F), nth_In; lia).
    assert (B : length (nth p f' []) = 3%nat) by (apply (proj1 (Forall_forall _ _) F'), nth_In; lia).
    apply (nth_ext _ _ 0 0); [congruence|]. intros c Hc. apply H. lia.
  - rewrite !nth_overflow by lia. reflexivity.
Qed.
Lemma shares_split d l B I k : solid d -> (k < 3)%nat -> Permutation l (B ++ I) -> paired I -> shares d l k = shares d B k.
Proof.
  intros Sd Hk P PI. unfold shares. rewrite (Rsum_permutation _ _ (Permutation_map _ P)), map_app, Rsum_app, (paired_shares (site d) I k); [ring| |exact Hk|exact PI].
  intros i. apply site_length. exact Sd.
Qed.

(** Any material, linear tetrahedra and hexahedra of any shape, straight quadratic elements; s is -1 for meshes whose
    elements are all turned inside out.  The force on p is minus the stress P times the shares of p in the faces that are
    not covered by another element. *)
Theorem C97_boundary :
  forall (m : material) (d : domain) (s : R) (t : list R) (Q f : list (list R)),
  solid d -> numbered_alike d s -> patchable d -> length t = 3%nat -> matrix3 Q -> field (length (positions d)) 3 f ->
  exists f', addForce m d (placed t Q (positions d)) f = Some f' /\ field (length (positions d)) 3 f' /\
    forall p uncovered covered, Permutation (link d p) (uncovered ++ covered) -> paired covered ->
      forall c, (c < 3)%nat ->
      entries f' p c = entries f p c - s * sum3 (fun k => entries (product Q (PK2_stress m (det Q) (cauchy_green Q))) c k * shares d uncovered k).
Proof.
  intros m d s t Q f Sd NA PA Lt MQ Ff. destruct (patch_force d s Sd NA PA m t Q f 0 0 Lt MQ Ff ltac:(lia)) as (f' & A & Ff' & _).
  exists f'. split; [exact A|]. split; [exact Ff'|]. intros p B I P PI c Hc.
  destruct (patch_force d s Sd NA PA m t Q f p c Lt MQ Ff Hc) as (f'' & A' & _ & W). rewrite A in A'. injection A' as <-. rewrite W. f_equal. f_equal.
  apply sum3_ext. intros k Hk. fold (stress_power m Q). f_equal. exact (shares_split d _ B I k Sd Hk P PI).
Qed.
Print Assumptions C97_boundary.

Theorem C97_interior_partial :
  forall (m : material) (d : domain) (s : R) (t : list R) (Q f : list (list R)),
  solid d -> numbered_alike d s -> patchable d -> length t = 3%nat -> matrix3 Q -> field (length (positions d)) 3 f ->
  exists f', addForce m d (placed t Q (positions d)) f = Some f' /\ forall p, interior d p -> nth p f' [] = nth p f [].
Proof.
  intros m d s t Q f Sd NA PA Lt MQ Ff. destruct (C97_boundary m d s t Q f Sd NA PA Lt MQ Ff) as (f' & A & Ff' & W).
  exists f'. split; [exact A|]. intros p IP. apply (same_row (length (positions d))); [exact Ff|exact Ff'|].
  intros c Hc. rewrite (W p [] (link d p) (Permutation_refl _) IP c Hc). unfold shares, sum3. cbn [map Rsum fold_right]. ring.
Qed.
Print Assumptions C97_interior_partial.

(** Linear elasticity: the corotational force fields with the option off, after any history of evaluations. *)
Theorem C97_linear_elasticity :
  forall (m : mesh) (E nu : R) (calls : list CorotModel.call) (t : list R) (Q f : list (list R)),
  valid_mesh m -> exactly_integrated m -> Forall evaluation calls -> length t = 3%nat -> matrix3 Q -> field (length (x0 m)) 3 f ->
  exists f', snd (CorotModel.addForce m (CorotModel.after m (CorotModel.fresh false E nu) (CorotModel.Reinit :: calls)) (placed t Q (x0 m)) f) = Some f' /\
    (forall p, interior (body m) p -> nth p f' [] = nth p f []) /\
    forall p uncovered covered, (p < length (x0 m))%nat -> Permutation (link (body m) p) (uncovered ++ covered) -> paired covered ->
      forall c, (c < 3)%nat ->
      entries f' p c = entries f p c - sum3 (fun k => linear_stress E nu (fun i j => entries Q i j - if Nat.eqb i j then 1 else 0) c k * shares (body m) uncovered k).
Proof.
  intros m E nu calls t Q f VM EI EV Lt MQ Ff.
  assert (N : (0 < length (x0 m))%nat).
  { destruct VM as (NE & _ & F). destruct (CorotModel.elements m) as [|row rows] eqn:Er; [congruence|]. apply Forall_cons_iff in F. destruct F as [(L & B & _) _].
    destruct row as [|i row]; [destruct (type m); discriminate L|]. apply Forall_cons_iff in B. lia. }
  destruct (linear_patch m VM E nu calls t Q f 0 0 EI EV Lt MQ Ff N ltac:(lia)) as (f' & A & Ff' & _).
  assert (W : forall p uncovered covered, (p < length (x0 m))%nat -> Permutation (link (body m) p) (uncovered ++ covered) -> paired covered ->
      forall c, (c < 3)%nat ->
      entries f' p c = entries f p c - sum3 (fun k => linear_stress E nu (fun i j => entries Q i j - if Nat.eqb i j then 1 else 0) c k * shares (body m) uncovered k)).
  { intros p B I Hp P PI c Hc. destruct (linear_patch m VM E nu calls t Q f p c EI EV Lt MQ Ff Hp Hc) as (f'' & A' & _ & W). rewrite A in A'. injection A' as <-. rewrite W. f_equal.
    apply sum3_ext. intros k Hk. f_equal. exact (shares_split (body m) _ B I k (body_solid m VM) Hk P PI). }
  exists f'. split; [exact A|]. split; [|exact W].
  intros p IP. destruct (Nat.lt_ge_cases p (length (x0 m))) as [Hp|Hp].
  - apply (same_row (length (x0 m))); [exact Ff|exact Ff'|].
    intros c Hc. rewrite (W p [] (link (body m) p) Hp (Permutation_refl _) IP c Hc). unfold shares, sum3. cbn [map Rsum fold_right]. ring.
  - destruct Ff as [L _], Ff' as [L' _]. rewrite !nth_overflow by lia. reflexivity.
Qed.
Print Assumptions C97_linear_elasticity.

(** ** Concrete meshes *)

(** The four tetrahedra of the star and the four hexahedra of the burr, of which only one is a parallelepiped; for the
    node 1 of the star the uncovered faces are those of the tetrahedron 1 2 3 4. *)
Example C97_star : forall m t Q f, length t = 3%nat -> matrix3 Q -> field 5 3 f ->
  exists f', addForce m (body star) (placed t Q (x0 star)) f = Some f' /\ nth 0 f' [] = nth 0 f [].
Proof.
  intros m t Q f Lt MQ Ff. destruct (C97_interior_partial m (body star) 1 t Q f star_solid star_numbered I Lt MQ Ff) as (f' & A & H). exists f'. split; [exact A|]. exact (H 0%nat star_interior).
Qed.
Example C97_star_boundary : exists uncovered covered, Permutation (link (body star) 1) (uncovered ++ covered) /\ paired covered /\
  uncovered = [ (true, [1; 2; 3]); (true, [1; 4; 2]); (true, [1; 3; 4]) ]%nat /\ length covered = 6%nat.
Proof.
  exists [ (true, [1; 2; 3]); (true, [1; 4; 2]); (true, [1; 3; 4]) ]%nat, [ (true, [1; 0; 2]); (true, [1; 2; 0]); (true, [1; 3; 0]); (true, [1; 0; 3]); (true, [1; 4; 0]); (true, [1; 0; 4])]%nat.
  split; [cbv; same_faces|]. split; [unfold paired; cbv; same_faces|]. split; reflexivity.
Qed.
Example C97_burr : forall m t Q f, length t = 3%nat -> matrix3 Q -> field 15 3 f ->
  exists f', addForce m (body burr) (placed t Q (x0 burr)) f = Some f' /\ nth 0 f' [] = nth 0 f [].
Proof.
  intros m t Q f Lt MQ Ff. destruct (C97_interior_partial m (body burr) 1 t Q f (body_solid burr burr_valid) burr_numbered I Lt MQ Ff) as (f' & A & H). exists f'. split; [exact A|]. exact (H 0%nat burr_interior).
Qed.

(** ** What does not hold *)

Definition still : list (list R) -> list (list R) := map (fun _ => [0; 0; 0]).

(** Curved quadratic tetrahedra: the four integration points are not enough.  Inside the bent ring, a stretch of a Saint
    Venant-Kirchhoff body leaves a force on the node 5. *)
Theorem C97_curved_tetrahedra_refuted :
  exists (m : material) (d : domain) (Q f f' : list (list R)) (p : nat),
    kind d = Tetrahedron_Quadratic /\ solid d /\ numbered_alike d 1 /\ interior d p /\ (p < length (positions d))%nat /\ matrix3 Q /\ 0 < det Q /\ field (length (positions d)) 3 f /\
    addForce m d (placed [0; 0; 0] Q (positions d)) f = Some f' /\ entries f' p 0 <> entries f p 0.
Proof.
  set (m := {| kind_of := SaintVenantKirchhoff; mu := 1; lambda := 0 |}).
  set (f := still (positions bent_ring)).
  assert (Ff : field (length (positions bent_ring)) 3 f) by (split; [reflexivity|repeat constructor]).
  assert (MQ : matrix3 stretch) by (split; [reflexivity|repeat constructor]).
  destruct (patch_integral bent_ring 1 bent_ring_solid bent_ring_numbered m [0; 0; 0] stretch f 5 0 eq_refl MQ Ff ltac:(lia)) as (f' & A & _ & W).
  exists m, bent_ring, stretch, f, f', 5%nat. split; [reflexivity|]. split; [exact bent_ring_solid|]. split; [exact bent_ring_numbered|]. split; [exact bent_ring_interior|].
  split; [cbn; lia|]. split; [exact MQ|]. split; [unfold det, stretch; cbn; lra|]. split; [exact Ff|]. split; [exact A|]. rewrite W.
  assert (P : forall k, (k < 3)%nat -> entries (stress_power m stretch) 0 k = if Nat.eqb k 0 then 6 else 0).
  { intros k Hk. destruct k as [|[|[|]]]; try lia; cbv -[Rplus Rmult Rminus Ropp Rdiv Rinv IZR]; field. }
  unfold sum3. rewrite !P by lia. cbn [Nat.eqb]. pose proof bent_ring_sum as S. cbn [kind bent_ring NumberOfNodes] in *. lra.
Qed.
Print Assumptions C97_curved_tetrahedra_refuted.

(** Hexahedra with one integration point, unless they are parallelepipeds. *)
Theorem C97_one_point_refuted :
  exists (m : mesh) (Q f f' : list (list R)) (p : nat),
    type m = HexahedronElastic true /\ valid_mesh m /\ numbered_alike (body m) 1 /\ interior (body m) p /\ (p < length (x0 m))%nat /\ matrix3 Q /\ field (length (x0 m)) 3 f /\
    snd (CorotModel.addForce m (CorotModel.after m (CorotModel.fresh false 1 0) [CorotModel.Reinit]) (placed [0; 0; 0] Q (x0 m)) f) = Some f' /\ entries f' p 0 <> entries f p 0.
Proof.
  set (f := still (x0 burr)).
  assert (Ff : field (length (x0 burr)) 3 f) by (split; [reflexivity|repeat constructor]).
  assert (MQ : matrix3 stretch) by (split; [reflexivity|repeat constructor]).
  destruct (linear_patch_integral burr burr_valid 1 0 [] [0; 0; 0] stretch f 0 0 (Forall_nil _) eq_refl MQ Ff ltac:(cbn; lia) ltac:(lia)) as (f' & A & _ & W).
  exists burr, stretch, f, f', 0%nat. split; [reflexivity|]. split; [exact burr_valid|]. split; [exact burr_numbered|]. split; [exact burr_interior|]. split; [cbn; lia|]. split; [exact MQ|].
  split; [exact Ff|]. split; [exact A|]. rewrite W.
  assert (P : forall k, (k < 3)%nat -> linear_stress 1 0 (fun i j => entries stretch i j - delta i j) 0 k = if Nat.eqb k 0 then 1 else 0).
  { intros k Hk. unfold linear_stress, delta, entries, stretch. destruct k as [|[|[|]]]; try lia; cbn; field. }
  unfold sum3. rewrite !P by lia. cbn [Nat.eqb]. pose proof burr_sum as S. cbn [type burr kind_of_elements NumberOfNodes CorotModel.elements] in *. lra.
Qed.
Print Assumptions C97_one_point_refuted.

(** With the corotational option on, even four equal tetrahedra around a node: the stiffness of an element is applied in
    its frame although it was computed in the axes of the world (C70), so the elements disagree on the stress. *)
Theorem C97_corotated_refuted :
  exists (m : mesh) (Q f f' : list (list R)) (p : nat),
    type m = TetrahedronElastic /\ valid_mesh m /\ numbered_alike (body m) 1 /\ interior (body m) p /\ (p < length (x0 m))%nat /\ matrix3 Q /\ field (length (x0 m)) 3 f /\
    snd (CorotModel.addForce m (CorotModel.after m (CorotModel.fresh true 1 0) [CorotModel.Reinit]) (placed [0; 0; 0] Q (x0 m)) f) = Some f' /\ entries f' p 0 <> entries f p 0.
Proof.
  set (f := still (x0 star)). assert (Ff : field (length (x0 star)) 3 f) by (split; [reflexivity|repeat constructor]).
  destruct (star_force f Ff) as (f' & A & W). exists star, stretch, f, f', 0%nat.
  split; [reflexivity|]. split; [exact star_valid|]. split; [exact star_numbered|]. split; [exact star_interior|]. split; [cbn; lia|]. split; [split; [reflexivity|repeat constructor]|].
  split; [exact Ff|]. split; [rewrite stretched_placed; exact A|]. rewrite W. lra.
Qed.
Print Assumptions C97_corotated_refuted.
