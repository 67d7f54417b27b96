(** C107: in a uniform state only the skin of the mesh matters. *)

From Coq Require Import ZArith Reals Lra Lia.
From Coquelicot Require Import Coquelicot.
From Coq Require Import List Arith Bool Permutation.
From Verif Require Import CorotModel CorotSpec CorotProperties.
From Verif Require Import GridGeoModel ShapeModel ShapeSpec LinAlg LinAlgProofs BarycentricModel MappingSpec MappingProofs TensorModel TensorSpec
  MaterialModel MaterialSpec MaterialProofs SparseModel SparseProofs Sums HyperModel HyperSpec HyperProofs HyperProofs2 HyperProperties
  EnergySpec EnergyProofs PatchSpec PatchProofs PatchProofs2 PatchProofs5 PatchProperties RemeshSpec RemeshProofs RemeshProofs2.
Import ListNotations.
Open Scope R_scope.

(** The energy of a uniform state is the energy density times the volume at rest. *)
Theorem C107_energy :
  forall m d t Q, solid d -> regular d -> length t = 3%nat -> matrix3 Q ->
  getPotentialEnergy m d (placed t Q (positions d)) = strain_energy_density m (det Q) (cauchy_green Q) * rest_volume d.
Proof. intros m d t Q Sd RG Lt MQ. rewrite energy_sum by (try assumption; apply placed_field; assumption). apply placed_energy; assumption. Qed.
Print Assumptions C107_energy.

(** The volume at rest is the one enclosed by the skin. *)
Theorem C107_volume_partial :
  forall d s skin, solid d -> numbered_alike d s -> patchable d -> is_skin d skin -> rest_volume d = s * enclosed d skin.
Proof. exact volume_enclosed. Qed.
Print Assumptions C107_volume_partial.

Lemma still_field (l : list (list R)) : field (length l) 3 (still l).
Proof. split; [apply map_length|]. apply Forall_forall. intros v Hv. apply in_map_iff in Hv. destruct Hv as (w & <- & _). reflexivity. Qed.
Lemma still_entries (l : list (list R)) p c : (c < 3)%nat -> entries (still l) p c = 0.
Proof.
  intros Hc. revert p. induction l as [|v l IH]; intros p; destruct p as [|p]; unfold entries; cbn [still map nth];
    [destruct c; reflexivity|destruct c; reflexivity|destruct c as [|[|[|] ] ]; try lia; reflexivity|exact (IH p)].
Qed.

(** Two meshes with the same skin, even of different kinds of elements: the same volume, the same energy and the same nodal forces. *)
Theorem C107_remeshing_partial :
  forall m d d' s skin t Q, solid d -> solid d' -> numbered_alike d s -> numbered_alike d' s -> patchable d -> patchable d' -> same_skin d d' skin ->
  length t = 3%nat -> matrix3 Q ->
  rest_volume d' = rest_volume d /\
  getPotentialEnergy m d' (placed t Q (positions d')) = getPotentialEnergy m d (placed t Q (positions d)) /\
  exists f f', addForce m d (placed t Q (positions d)) (still (positions d)) = Some f /\ addForce m d' (placed t Q (positions d')) (still (positions d')) = Some f' /\
    forall p c, (c < 3)%nat -> entries f' p c = entries f p c.
Proof.
  intros m d d' s skin t Q Sd Sd' NA NA' PA PA' SS Lt MQ. pose proof SS as (A & B & _).
  assert (V : rest_volume d' = rest_volume d).
  { rewrite (volume_enclosed d s skin), (volume_enclosed d' s skin) by assumption. rewrite (same_enclosed d d' skin) by assumption. reflexivity. }
  split; [exact V|]. split.
  { rewrite !C107_energy by (try assumption; eapply numbered_regular; eassumption). rewrite V. reflexivity. }
  destruct (C97_boundary m d s t Q (still (positions d)) Sd NA PA Lt MQ (still_field _)) as (f & E & _ & W).
  destruct (C97_boundary m d' s t Q (still (positions d')) Sd' NA' PA' Lt MQ (still_field _)) as (f' & E' & _ & W').
  exists f, f'. split; [exact E|]. split; [exact E'|]. intros p c Hc. destruct (A p) as (co & P & PC), (B p) as (co' & P' & PC').
  rewrite (W p (skin p) co P PC c Hc), (W' p (skin p) co' P' PC' c Hc), !still_entries by exact Hc. f_equal. f_equal. apply sum3_ext. intros k _. rewrite (same_shares d d' skin p k SS). reflexivity.
Qed.
Print Assumptions C107_remeshing_partial.

(** Linear elasticity, after any history of evaluations: two meshes with the same skin give the same nodal forces. *)
Theorem C107_linear_elasticity_partial :
  forall (m m' : mesh) (E nu : R) (calls calls' : list CorotModel.call) skin (t : list R) (Q : list (list R)),
  valid_mesh m -> valid_mesh m' -> exactly_integrated m -> exactly_integrated m' -> same_skin (body m) (body m') skin ->
  Forall evaluation calls -> Forall evaluation calls' -> length t = 3%nat -> matrix3 Q ->
  exists f f', snd (CorotModel.addForce m (CorotModel.after m (CorotModel.fresh false E nu) (CorotModel.Reinit :: calls)) (placed t Q (x0 m)) (still (x0 m))) = Some f /\
    snd (CorotModel.addForce m' (CorotModel.after m' (CorotModel.fresh false E nu) (CorotModel.Reinit :: calls')) (placed t Q (x0 m')) (still (x0 m'))) = Some f' /\
    forall p c, (p < length (x0 m))%nat -> (p < length (x0 m'))%nat -> (c < 3)%nat -> entries f' p c = entries f p c.
Proof.
  intros m m' E nu calls calls' skin t Q VM VM' EI EI' SS EV EV' Lt MQ. pose proof SS as (A & B & _).
  destruct (C97_linear_elasticity m E nu calls t Q (still (x0 m)) VM EI EV Lt MQ (still_field _)) as (f & X & _ & W).
  destruct (C97_linear_elasticity m' E nu calls' t Q (still (x0 m')) VM' EI' EV' Lt MQ (still_field _)) as (f' & X' & _ & W').
  exists f, f'. split; [exact X|]. split; [exact X'|]. intros p c Hp Hp' Hc. destruct (A p) as (co & P & PC), (B p) as (co' & P' & PC').
  rewrite (W p (skin p) co Hp P PC c Hc), (W' p (skin p) co' Hp' P' PC' c Hc), !still_entries by exact Hc. f_equal. apply sum3_ext. intros k _. rewrite (same_shares (body m) (body m') skin p k SS). reflexivity.
Qed.
Print Assumptions C107_linear_elasticity_partial.

(** Moving nodes inside a mesh of linear elements, as a mesh smoother does, as long as no element is turned over. *)
Theorem C107_inner_nodes :
  forall m d s y t Q f, solid d -> (kind d = Tetrahedron_Linear \/ kind d = Hexahedron_Linear) -> field (length (positions d)) 3 y ->
  (forall p, (p < length (positions d))%nat -> interior d p \/ nth p y [] = nth p (positions d) []) ->
  numbered_alike d s -> numbered_alike (moved d y) s ->
  length t = 3%nat -> matrix3 Q -> field (length (positions d)) 3 f ->
  rest_volume (moved d y) = rest_volume d /\
  getPotentialEnergy m (moved d y) (placed t Q y) = getPotentialEnergy m d (placed t Q (positions d)) /\
  addForce m (moved d y) (placed t Q y) f = addForce m d (placed t Q (positions d)) f /\ addForce m d (placed t Q (positions d)) f <> None.
Proof.
  intros m d s y t Q f Sd KD Fy H NA NA' Lt MQ Ff.
  assert (Fx : field (length (positions d)) 3 (positions d)) by (split; [reflexivity|apply Sd]).
  assert (Sd' : solid (moved d y)) by (apply moved_solid; assumption).
  assert (PA : patchable d) by (unfold patchable; destruct KD as [-> | ->]; exact I).
  assert (PA' : patchable (moved d y)) by (apply linear_patchable; exact KD).
  assert (V : rest_volume (moved d y) = rest_volume d).
  { rewrite (rest_signed d s NA), (rest_signed (moved d y) s NA'). f_equal. exact (inner_volume d Sd KD (positions d) y Fx Fy H). }
  split; [exact V|]. split.
  { change y with (positions (moved d y)) at 2. rewrite !C107_energy by (try assumption; eapply numbered_regular; eassumption). rewrite V. reflexivity. }
  destruct (C97_boundary m d s t Q f Sd NA PA Lt MQ Ff) as (f1 & E & F1 & W).
  assert (Ff' : field (length (positions (moved d y))) 3 f) by (cbn [positions moved]; rewrite (proj1 Fy); exact Ff).
  destruct (C97_boundary m (moved d y) s t Q f Sd' NA' PA' Lt MQ Ff') as (f2 & E' & F2 & W'). cbn [positions moved] in E', F2. rewrite (proj1 Fy) in F2.
  rewrite E, E'. split; [|discriminate]. f_equal. destruct F1 as [L1 G1], F2 as [L2 G2].
  apply (nth_ext _ _ [] []); [congruence|]. intros p Hp. rewrite L2 in Hp. apply (same_row (length (positions d))); [split; assumption|split; assumption|].
  intros c Hc. rewrite (W p (link d p) [] ltac:(rewrite app_nil_r; apply Permutation_refl) (Permutation_refl _) c Hc).
  rewrite (W' p (link d p) [] ltac:(rewrite app_nil_r; apply Permutation_refl) (Permutation_refl _) c Hc). f_equal. f_equal. apply sum3_ext. intros k Hk. f_equal.
  rewrite <- (around_link d Sd KD y p k Fy Hk). change (shares d (link d p) k) with (shares (moved d (positions d)) (link d p) k). rewrite <- (around_link d Sd KD (positions d) p k Fx Hk).
  exact (inner_around d Sd KD (positions d) y p k Fx Fy H Hp Hk).
Qed.
Print Assumptions C107_inner_nodes.

(** ** Concrete meshes *)

(** The four tetrahedra of the star and the single tetrahedron 1 3 2 4, where the node 0 is left over and lies elsewhere. *)
Definition lone : domain :=
  {| dim := 3; kind := Tetrahedron_Linear; positions := [[7; 7; 7]; [1; 0; 0]; [0; 1; 0]; [0; 0; 1]; [-1; -1; -1]]; connectivity := [ [1; 3; 2; 4] ]%nat |}.
Lemma lone_solid : solid lone.
Proof. split; [repeat constructor; cbn; lia|]. split; [reflexivity|]. split; [reflexivity|repeat constructor]. Qed.
Lemma lone_numbered : numbered_alike lone 1.
Proof.
  split; [left; reflexivity|]. apply Forall_forall. intros row Hr. apply Forall_forall. intros g _. cbn in Hr. destruct Hr as [<-|[] ].
  unfold local_volume. replace (det _) with 4; [lra|]. unfold nodes_of_element. cbn. ring.
Qed.
Lemma lone_skin : same_skin (body star) lone (link lone).
Proof.
  split; [|split].
  - intros p. destruct (Nat.lt_ge_cases p 5) as [Hp|Hp].
    + destruct p as [|[|[|[|[|] ] ] ] ]; [| | | | |lia].
      * exists (link (body star) 0). split; [apply Permutation_refl|exact star_interior].
      * exists [ (true, [1; 0; 2]); (true, [1; 2; 0]); (true, [1; 3; 0]); (true, [1; 0; 3]); (true, [1; 4; 0]); (true, [1; 0; 4])]%nat. split; [cbv; same_faces|unfold paired; cbv; same_faces].
      * exists [ (true, [2; 0; 1]); (true, [2; 1; 0]); (true, [2; 3; 0]); (true, [2; 0; 3]); (true, [2; 4; 0]); (true, [2; 0; 4])]%nat. split; [cbv; same_faces|unfold paired; cbv; same_faces].
      * exists [ (true, [3; 0; 1]); (true, [3; 1; 0]); (true, [3; 2; 0]); (true, [3; 0; 2]); (true, [3; 4; 0]); (true, [3; 0; 4])]%nat. split; [cbv; same_faces|unfold paired; cbv; same_faces].
      * exists [ (true, [4; 0; 1]); (true, [4; 1; 0]); (true, [4; 2; 0]); (true, [4; 0; 2]); (true, [4; 3; 0]); (true, [4; 0; 3])]%nat. split; [cbv; same_faces|unfold paired; cbv; same_faces].
    + exists []. rewrite (link_outside (body star) p star_solid Hp), (link_outside lone p lone_solid Hp). split; apply Permutation_refl.
  - intros p. exists []. rewrite app_nil_r. split; apply Permutation_refl.
  - intros p f Hf. destruct (Nat.lt_ge_cases p 5) as [Hp|Hp].
    + destruct p as [|[|[|[|[|] ] ] ] ]; [| | | | |lia]; cbv -[R] in Hf; try contradiction; (split; [reflexivity|]); intros i Hi;
        repeat (destruct Hf as [<-|Hf]; [cbn in Hi; repeat (destruct Hi as [<-|Hi]; [reflexivity|]); destruct Hi|]); destruct Hf.
    + rewrite (link_outside lone p lone_solid Hp) in Hf. destruct Hf.
Qed.
Example C107_star_lone : forall m t Q, length t = 3%nat -> matrix3 Q ->
  rest_volume lone = rest_volume (body star) /\
  getPotentialEnergy m lone (placed t Q (positions lone)) = getPotentialEnergy m (body star) (placed t Q (x0 star)) /\
  exists f f', addForce m (body star) (placed t Q (x0 star)) (still (x0 star)) = Some f /\ addForce m lone (placed t Q (positions lone)) (still (positions lone)) = Some f' /\
    forall p c, (c < 3)%nat -> entries f' p c = entries f p c.
Proof.
  intros m t Q Lt MQ. exact (C107_remeshing_partial m (body star) lone 1 (link lone) t Q star_solid lone_solid star_numbered lone_numbered I I lone_skin Lt MQ).
Qed.
Example C107_lone_volume : rest_volume lone = 2 / 3 /\ enclosed (body star) (link lone) = 2 / 3.
Proof.
  assert (V : rest_volume lone = 2 / 3).
  { unfold rest_volume. cbn [connectivity lone map Rsum fold_right kind gauss_nodes]. unfold local_volume, nodes_of_element. cbn. rewrite Rabs_right; lra. }
  split; [exact V|]. pose proof (volume_enclosed (body star) 1 (link lone) star_solid star_numbered I (proj1 lone_skin)) as E.
  pose proof (C107_star_lone {| kind_of := SaintVenantKirchhoff; mu := 1; lambda := 0 |} [0; 0; 0] stretch eq_refl ltac:(split; [reflexivity|repeat constructor])) as (W & _). lra.
Qed.
(** The inner node of the star moved. *)
Definition shifted : list (list R) := [[1/10; 0; -1/5]; [1; 0; 0]; [0; 1; 0]; [0; 0; 1]; [-1; -1; -1]].
Example C107_star_shifted : forall m t Q f, length t = 3%nat -> matrix3 Q -> field 5 3 f ->
  getPotentialEnergy m (moved (body star) shifted) (placed t Q shifted) = getPotentialEnergy m (body star) (placed t Q (x0 star)) /\
  addForce m (moved (body star) shifted) (placed t Q shifted) f = addForce m (body star) (placed t Q (x0 star)) f.
Proof.
  intros m t Q f Lt MQ Ff.
  assert (NA : numbered_alike (moved (body star) shifted) 1).
  { split; [left; reflexivity|]. apply Forall_forall. intros row Hr. apply Forall_forall. intros g _. cbn in Hr.
    repeat (destruct Hr as [<-|Hr]; [unfold local_volume, nodes_of_element; cbn; lra|]). destruct Hr. }
  assert (IN : forall p, (p < 5)%nat -> interior (body star) p \/ nth p shifted [] = nth p (x0 star) []).
  { intros p Hp. destruct p as [|[|[|[|[|] ] ] ] ]; [left; exact star_interior|right; reflexivity|right; reflexivity|right; reflexivity|right; reflexivity|lia]. }
  destruct (C107_inner_nodes m (body star) 1 shifted t Q f star_solid (or_introl eq_refl) ltac:(split; [reflexivity|repeat constructor]) IN star_numbered NA Lt MQ Ff) as (_ & A & B & _).
  split; assumption.
Qed.
