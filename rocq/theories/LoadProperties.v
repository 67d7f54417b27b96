(** C98: a body under a uniform stress, loaded by the tractions of that stress on its boundary, is in equilibrium. *)

From Coq Require Import ZArith Reals Lra Lia.
From Coquelicot Require Import Coquelicot.
From Coq Require Import List Arith Bool Permutation.
From Verif Require Import CorotModel CorotSpec CorotProperties.
From Verif Require Import TractionModel TractionSpec TractionProofs TractionProperties.
From Verif Require Import GridGeoModel ShapeModel ShapeSpec LinAlg LinAlgProofs BarycentricModel MappingSpec MappingProofs TensorModel TensorSpec
  MaterialModel MaterialSpec MaterialProofs SparseModel SparseProofs Sums HyperModel HyperSpec HyperProofs HyperProofs2 HyperProperties
  EnergySpec EnergyProofs PatchSpec PatchProofs PatchProofs2 PatchProofs3 PatchProofs4 PatchProofs5 PatchProperties LoadSpec LoadProofs LoadProofs2.
Import ListNotations.
Open Scope R_scope.

Lemma held_shares d s P (loads : list (config * state)) p c : solid d -> (c < 3)%nat -> held d P (map (fun l => surface (fst l)) loads) p ->
  Forall (fun l => loads_part d (traction_of s P) (fst l)) loads ->
  s * sum3 (fun k => P c k * shares d (link d p) k) = Rsum (map (fun l => nth c (traction (fst l)) 0 * node_weight (surface (fst l)) p) loads).
Proof.
  intros Sd Hc (free & covered & PM & PC & FR) FL. rewrite (loads_shares d s P Sd loads p c Hc FL). f_equal.
  rewrite flat_map_concat_map, map_map, <- flat_map_concat_map, app_assoc in PM.
  set (B := flat_map _ loads) in *.
  rewrite (sum3_ext _ (fun k => P c k * shares d B k + P c k * shares d free k)).
  2:{ intros k Hk. rewrite (shares_split d _ _ covered k Sd Hk PM PC). unfold shares. rewrite map_app, Rsum_app. ring. }
  transitivity (sum3 (fun k => P c k * shares d B k) + sum3 (fun k => P c k * shares d free k)); [unfold sum3; ring|].
  replace (sum3 (fun k => P c k * shares d free k)) with 0; [ring|]. clear - FR Hc. unfold shares.
  induction FR as [|f free H FR IH]; [unfold sum3; cbn; ring|]. specialize (H c Hc). unfold sum3 in *. cbn [map]. change (Rsum (?x :: ?l)) with (x + Rsum l). lra.
Qed.

(** Hyperelastic bodies: any material, linear tetrahedra and hexahedra of any shape, straight quadratic elements.  P is the
    stress; the loads are on plane parts of the boundary and are fully applied. *)
Theorem C98_equilibrium :
  forall (m : material) (d : domain) (s : R) (t : list R) (Q f : list (list R)) (loads : list (config * state)),
  let P := entries (product Q (PK2_stress m (det Q) (cauchy_green Q))) in
  solid d -> numbered_alike d s -> patchable d -> length t = 3%nat -> matrix3 Q -> field (length (positions d)) 3 f ->
  Forall (fun l => loads_part d (traction_of s P) (fst l) /\ fully_applied (fst l) (snd l)) loads ->
  exists f', add_loads (map snd loads) (HyperModel.addForce m d (placed t Q (positions d)) f) = Some f' /\ field (length (positions d)) 3 f' /\
    forall p, held d P (map (fun l => surface (fst l)) loads) p -> nth p f' [] = nth p f [].
Proof.
  intros m d s t Q f loads P Sd NA PA Lt MQ Ff FL.
  destruct (C97_boundary m d s t Q f Sd NA PA Lt MQ Ff) as (f1 & A & F1 & W). rewrite A.
  destruct (loads_sum d (traction_of s P) Sd loads f1) as (f' & E & F' & N); [|exact F1|].
  { eapply Forall_impl; [|exact FL]. intros l [HP HA]. split; [exact HP|]. split; [|exact HA]. destruct HP as (_ & _ & _ & _ & n & _ & _ & T & _). rewrite T. reflexivity. }
  exists f'. split; [exact E|]. split; [exact F'|]. intros p H. apply (same_row (length (positions d))); [exact Ff|exact F'|]. intros c Hc.
  change (entries f' p c) with (nth c (nth p f' []) 0). rewrite N. change (nth c (nth p f1 []) 0) with (entries f1 p c).
  rewrite (W p (link d p) [] ltac:(rewrite app_nil_r; apply Permutation_refl) ltac:(apply perm_nil) c Hc).
  fold P. rewrite (held_shares d s P loads p c Sd Hc H); [ring|]. eapply Forall_impl; [|exact FL]. intros l [HP _]. exact HP.
Qed.
Print Assumptions C98_equilibrium.

(** Linear elasticity: the corotational force fields with the option off, after any history of evaluations. *)
Theorem C98_linear_elasticity :
  forall (m : mesh) (E nu : R) (calls : list CorotModel.call) (t : list R) (Q f : list (list R)) (loads : list (config * state)),
  let P := linear_stress E nu (fun i j => entries Q i j - if Nat.eqb i j then 1 else 0) in
  valid_mesh m -> exactly_integrated m -> Forall evaluation calls -> length t = 3%nat -> matrix3 Q -> field (length (x0 m)) 3 f ->
  Forall (fun l => loads_part (body m) (traction_of 1 P) (fst l) /\ fully_applied (fst l) (snd l)) loads ->
  exists f', add_loads (map snd loads) (snd (CorotModel.addForce m (CorotModel.after m (CorotModel.fresh false E nu) (CorotModel.Reinit :: calls)) (placed t Q (x0 m)) f)) = Some f' /\ field (length (x0 m)) 3 f' /\
    forall p, held (body m) P (map (fun l => surface (fst l)) loads) p -> nth p f' [] = nth p f [].
Proof.
  intros m E nu calls t Q f loads P VM EI EV Lt MQ Ff FL. pose proof (body_solid m VM) as Sd.
  assert (N0 : (0 < length (x0 m))%nat).
  { destruct VM as (NE & _ & F). destruct (CorotModel.elements m) as [|row rows] eqn:Er; [congruence|]. apply Forall_cons_iff in F. destruct F as [(L & B & _) _].
    destruct row as [|i row]; [destruct (type m); discriminate L|]. apply Forall_cons_iff in B. lia. }
  destruct (linear_patch m VM E nu calls t Q f 0 0 EI EV Lt MQ Ff N0 ltac:(lia)) as (f1 & A & F1 & _). rewrite A.
  destruct (loads_sum (body m) (traction_of 1 P) Sd loads f1) as (f' & E' & F' & N); [|exact F1|].
  { eapply Forall_impl; [|exact FL]. intros l [HP HA]. split; [exact HP|]. split; [|exact HA]. destruct HP as (_ & _ & _ & _ & n & _ & _ & T & _). rewrite T. reflexivity. }
  exists f'. split; [exact E'|]. split; [exact F'|]. intros p H. destruct (Nat.lt_ge_cases p (length (x0 m))) as [Hp|Hp].
  - apply (same_row (length (x0 m))); [exact Ff|exact F'|]. intros c Hc.
    change (entries f' p c) with (nth c (nth p f' []) 0). rewrite N. change (nth c (nth p f1 []) 0) with (entries f1 p c).
    destruct (linear_patch m VM E nu calls t Q f p c EI EV Lt MQ Ff Hp Hc) as (f'' & A' & _ & W). rewrite A in A'. injection A' as <-. rewrite W.
    pose proof (held_shares (body m) 1 P loads p c Sd Hc H) as HS. rewrite <- HS.
    + rewrite Rmult_1_l. match goal with |- _ - ?a + ?b = _ => change a with b end. ring.
    + eapply Forall_impl; [|exact FL]. intros l [HP _]. exact HP.
  - destruct Ff as [L _], F' as [L' _]. cbn [positions body] in L'. rewrite !nth_overflow by lia. reflexivity.
Qed.
Print Assumptions C98_linear_elasticity.

(** ** A concrete bar *)

(** Two cubes side by side, pulled at both ends by 6 along x; the second load is applied by steps of one half.  A Saint
    Venant-Kirchhoff bar with mu = 1 and lambda = 0 is in equilibrium when it is stretched to twice its length. *)
Definition bar : domain :=
  {| dim := 3; kind := Hexahedron_Linear;
     positions := [ [0;0;0]; [1;0;0]; [2;0;0]; [0;1;0]; [1;1;0]; [2;1;0]; [0;0;1]; [1;0;1]; [2;0;1]; [0;1;1]; [1;1;1]; [2;1;1] ];
     connectivity := [ [0; 1; 4; 3; 6; 7; 10; 9]; [1; 2; 5; 4; 7; 8; 11; 10] ]%nat |}.
Definition pull_left : config :=
  {| surface := {| dim := 3; kind := Quad_Linear; positions := positions bar; connectivity := [ [0; 6; 9; 3] ]%nat |};
     traction := [-6; 0; 0]; TractionModel.slope := 0; steps_before_increment := 1 |}.
Definition pull_right : config :=
  {| surface := {| dim := 3; kind := Quad_Linear; positions := positions bar; connectivity := [ [2; 5; 11; 8] ]%nat |};
     traction := [6; 0; 0]; TractionModel.slope := 1/2; steps_before_increment := 1 |}.
Definition steel : material := {| kind_of := SaintVenantKirchhoff; mu := 1; lambda := 0 |}.

Lemma bar_solid : solid bar.
Proof.
  split; [|split; [reflexivity|split; [reflexivity|repeat constructor]]].
  apply Forall_forall. intros row Hr. cbn in Hr. repeat (destruct Hr as [<-|Hr]; [split; [reflexivity|repeat constructor; cbn; lia]|]). destruct Hr.
Qed.
Lemma bar_numbered : numbered_alike bar 1.
Proof.
  split; [left; reflexivity|]. apply Forall_forall. intros row Hr. cbn in Hr.
  apply Forall_forall. intros g Hg. cbn [kind bar gauss_nodes] in Hg. unfold Hexahedron_Linear_gauss in Hg.
  assert (E : exists u v w, fst g = [u; v; w]) by (cbn in Hg; repeat (destruct Hg as [<-|Hg]; [do 3 eexists; reflexivity|]); destruct Hg). clear Hg. destruct E as (u & v & w & ->).
  assert (V : local_volume bar row [u; v; w] = 1/8) by (repeat (destruct Hr as [<-|Hr]; [cbv -[Rplus Rmult Rminus Ropp Rdiv Rinv IZR]; field|]); destruct Hr). rewrite V. lra.
Qed.
Lemma bar_stress : product stretch (PK2_stress steel (det stretch) (cauchy_green stretch)) = [[6; 0; 0]; [0; 0; 0]; [0; 0; 0]].
Proof. cbv -[Rplus Rmult Rminus Ropp Rdiv Rinv IZR]. repeat (f_equal; try field). Qed.

Definition within (l : list nat) (f : bool * list nat) : bool := forallb (fun i => existsb (Nat.eqb i) l) (snd f).
Lemma bar_held p : (p < 12)%nat -> held bar (entries [[6; 0; 0]; [0; 0; 0]; [0; 0; 0]]) [surface pull_left; surface pull_right] p.
Proof.
  intros Hp.  set (middle := [1; 4; 7; 10]%nat). set (sides := fun f => negb (within middle f || within [0; 3; 6; 9]%nat f || within [2; 5; 8; 11]%nat f)).
  exists (filter sides (link bar p)), (filter (within middle) (link bar p)). unfold sides, middle, paired.
  do 12 (destruct p as [|p]; [cbv -[Rplus Rmult Rminus Ropp Rdiv Rinv IZR lt sum3 share site bar entries]; split; [same_faces|split; [first [apply perm_nil|same_faces]|]];
    repeat constructor; intros c Hc; destruct c as [|[|[|]]]; try lia; cbv -[Rplus Rmult Rminus Ropp Rdiv Rinv IZR]; field|]). lia.
Qed.
Lemma bar_states : exists st1 st2, fully_applied pull_left st1 /\ fully_applied pull_right st2.
Proof.
  assert (S1 : surface_mesh pull_left) by (split; [repeat constructor; cbn; lia|split; reflexivity]).
  assert (S2 : surface_mesh pull_right) by (split; [repeat constructor; cbn; lia|split; reflexivity]).
  assert (EP : 0 < EPSILON < 1/2).
  { unfold EPSILON. split; [apply Rinv_0_lt_compat, IZR_lt; reflexivity|]. apply (Rmult_lt_reg_r (IZR (10 ^ 19))); [apply IZR_lt; reflexivity|]. rewrite Rinv_l by (apply not_0_IZR; discriminate). assert (IZR (10 ^ 19) > 2) by (apply IZR_lt; reflexivity). lra. }
  destruct (C63_constant pull_left [] S1) as (st1 & _ & R1 & _); [cbn [TractionModel.slope pull_left]; lra|].
  destruct (C63_reached pull_right S2) as (k & K); [cbn [TractionModel.slope pull_right]; lra|].
  destruct (run_after pull_right (repeat true k) S2) as (st2 & R2 & _); [cbn [TractionModel.slope pull_right]; lra|].
  assert (A1 : fully_applied pull_left st1) by (exists []; split; [exact R1|left; cbn [TractionModel.slope pull_left]; lra]).
  assert (A2 : fully_applied pull_right st2).
  { exists (repeat true k). split; [exact R2|right]. split; [cbn [TractionModel.slope pull_right]; lra|]. apply (K (repeat true k)); [|exact R2].
    clear. induction k; cbn; lia. }
  exists st1, st2. split; assumption.
Qed.
Lemma bar_loads st1 st2 : fully_applied pull_left st1 -> fully_applied pull_right st2 ->
  Forall (fun l => loads_part bar (traction_of 1 (entries [[6; 0; 0]; [0; 0; 0]; [0; 0; 0]])) (fst l) /\ fully_applied (fst l) (snd l)) [(pull_left, st1); (pull_right, st2)].
Proof.
  intros A1 A2. repeat (apply Forall_cons || apply Forall_nil); cbn [fst snd]; (split; [|assumption]);
    (split; [reflexivity|split; [reflexivity|split; [repeat constructor; cbn; lia|split; [reflexivity|]]]]).
  - exists [-1; 0; 0]. split; [reflexivity|]. split; [cbn; ring|]. split; [cbn; repeat (f_equal; try ring)|].
    intros row [<-|[]]. cbn [facing kind surface pull_left]. repeat split; exists 1; (split; [lra|]); cbn; unfold vcross; cbn [nth]; list3; ring.
  - exists [1; 0; 0]. split; [reflexivity|]. split; [cbn; ring|]. split; [cbn; repeat (f_equal; try ring)|].
    intros row [<-|[]]. cbn [facing kind surface pull_right]. repeat split; exists 1; (split; [lra|]); cbn; unfold vcross; cbn [nth]; list3; ring.
Qed.
Example C98_bar : exists st1 st2, fully_applied pull_left st1 /\ fully_applied pull_right st2 /\
  forall f, field 12 3 f -> add_loads [st1; st2] (HyperModel.addForce steel bar (placed [0; 0; 0] stretch (positions bar)) f) = Some f.
Proof.
  destruct bar_states as (st1 & st2 & A1 & A2). exists st1, st2. split; [exact A1|]. split; [exact A2|]. intros f Ff.
  assert (MQ : matrix3 stretch) by (split; [reflexivity|repeat constructor]).
  destruct (C98_equilibrium steel bar 1 [0; 0; 0] stretch f [(pull_left, st1); (pull_right, st2)] bar_solid bar_numbered I eq_refl MQ Ff) as (f' & E & [L' _] & H).
  - rewrite bar_stress. apply bar_loads; assumption.
  - cbn [map snd] in E. rewrite E. f_equal. apply (nth_ext _ _ [] []); [destruct Ff as [-> _]; exact L'|]. rewrite L'. intros p Hp. apply H. rewrite bar_stress. exact (bar_held p Hp).
Qed.

(** The same loads on a linear elastic bar with the Young modulus 6 and the Poisson ratio 0. *)
Definition rod : mesh := {| type := HexahedronElastic false; x0 := positions bar; CorotModel.elements := connectivity bar |}.
Lemma rod_valid : valid_mesh rod.
Proof.
  split; [discriminate|]. split; [split; [reflexivity|repeat constructor]|].
  apply Forall_forall. intros row Hr. split; [|split].
  - cbn in Hr. repeat (destruct Hr as [<-|Hr]; [reflexivity|]). destruct Hr.
  - cbn in Hr. repeat (destruct Hr as [<-|Hr]; [repeat constructor; cbn; lia|]). destruct Hr.
  - apply Forall_forall. intros g Hg. cbn [type rod integration_points kind_of_elements] in *.
    assert (E : exists u v w, fst g = [u; v; w]) by (unfold gauss_nodes, Hexahedron_Linear_gauss in Hg; cbn in Hg; repeat (destruct Hg as [<-|Hg]; [do 3 eexists; reflexivity|]); destruct Hg). clear Hg. destruct E as (u & v & w & ->).
    assert (V : det (jacobian 3 Hexahedron_Linear (gather (x0 rod) row) [u; v; w]) = 1/8) by (repeat (destruct Hr as [<-|Hr]; [cbv -[Rplus Rmult Rminus Ropp Rdiv Rinv IZR]; field|]); destruct Hr). rewrite V. lra.
Qed.
Lemma rod_stress i j : (i < 3)%nat -> (j < 3)%nat -> linear_stress 6 0 (fun i j => entries stretch i j - if Nat.eqb i j then 1 else 0) i j = entries [[6; 0; 0]; [0; 0; 0]; [0; 0; 0]] i j.
Proof. intros Hi Hj. destruct i as [|[|[|]]]; try lia; destruct j as [|[|[|]]]; try lia; unfold linear_stress, entries, stretch; cbn; field. Qed.
Example C98_rod : exists st1 st2, fully_applied pull_left st1 /\ fully_applied pull_right st2 /\
  forall f, field 12 3 f ->
  add_loads [st1; st2] (snd (CorotModel.addForce rod (CorotModel.after rod (CorotModel.fresh false 6 0) [CorotModel.Reinit]) (placed [0; 0; 0] stretch (x0 rod)) f)) = Some f.
Proof.
  destruct bar_states as (st1 & st2 & A1 & A2). exists st1, st2. split; [exact A1|]. split; [exact A2|]. intros f Ff.
  assert (MQ : matrix3 stretch) by (split; [reflexivity|repeat constructor]).
  destruct (C98_linear_elasticity rod 6 0 [] [0; 0; 0] stretch f [(pull_left, st1); (pull_right, st2)] rod_valid I ltac:(constructor) eq_refl MQ Ff) as (f' & E & [L' _] & H).
  - eapply Forall_impl; [|exact (bar_loads st1 st2 A1 A2)]. intros l [(D3 & PS & WF & C2 & n & L3 & U & T & FC) FA]. split; [|exact FA].
    split; [exact D3|]. split; [exact PS|]. split; [exact WF|]. split; [exact C2|]. exists n. split; [exact L3|]. split; [exact U|]. split; [|exact FC].
    rewrite T. unfold traction_of. cbn [map]. rewrite !rod_stress by lia. reflexivity.
  - cbn [map snd] in E. rewrite E. f_equal. apply (nth_ext _ _ [] []); [destruct Ff as [-> _]; exact L'|]. rewrite L'. intros p Hp. apply H.
    destruct (bar_held p Hp) as (free & covered & PM & PC & FR). exists free, covered. split; [exact PM|]. split; [exact PC|].
    eapply Forall_impl; [|exact FR]. intros g K c Hc. etransitivity; [|exact (K c Hc)]. apply sum3_ext. intros k Hk. rewrite rod_stress by assumption. reflexivity.
Qed.

(** The elements of the traction must be faces of the elements of the body: the same end covered by two triangles gets the
    same total force, with other shares for its corners, and the bar is not in equilibrium. *)
Definition pull_triangles : config :=
  {| surface := {| dim := 3; kind := Triangle_Linear; positions := positions bar; connectivity := [ [2; 5; 11]; [2; 11; 8] ]%nat |};
     traction := [6; 0; 0]; TractionModel.slope := 0; steps_before_increment := 1 |}.
Theorem C98_matching_faces_needed :
  exists st1 st2 f f', fully_applied pull_left st1 /\ fully_applied pull_triangles st2 /\ field 12 3 f /\
  Forall (fun c => loads_part bar (traction_of 1 (entries (product stretch (PK2_stress steel (det stretch) (cauchy_green stretch))))) c) [pull_left; pull_triangles] /\
  add_loads [st1; st2] (HyperModel.addForce steel bar (placed [0; 0; 0] stretch (positions bar)) f) = Some f' /\ entries f' 5 0 <> entries f 5 0.
Proof.
  rewrite bar_stress. set (P := entries [[6; 0; 0]; [0; 0; 0]; [0; 0; 0]]).
  destruct bar_states as (st1 & st' & A1 & A'). pose proof (bar_loads st1 st' A1 A') as BL. apply Forall_cons_iff in BL. destruct BL as [[B1 _] _]. cbn [fst] in B1.
  assert (S2 : surface_mesh pull_triangles) by (split; [repeat constructor; cbn; lia|split; reflexivity]).
  assert (EP : 0 < EPSILON) by (unfold EPSILON; apply Rinv_0_lt_compat, IZR_lt; reflexivity).
  destruct (C63_constant pull_triangles [] S2) as (st2 & _ & R2 & _); [cbn [TractionModel.slope pull_triangles]; lra|].
  assert (A2 : fully_applied pull_triangles st2) by (exists []; split; [exact R2|left; cbn [TractionModel.slope pull_triangles]; lra]).
  assert (FC : forall row, In row (connectivity (surface pull_triangles)) -> facing Triangle_Linear (nodes_of_element (surface pull_triangles) row) [1; 0; 0]).
  { intros row Hr. cbn in Hr. repeat (destruct Hr as [<-|Hr]; [exists 1; split; [lra|]; cbn; unfold vcross; cbn [nth]; list3; ring|]). destruct Hr. }
  assert (U : vdot [1; 0; 0] [1; 0; 0] = 1) by (cbn; ring).
  assert (B2 : loads_part bar (traction_of 1 P) pull_triangles).
  { split; [reflexivity|]. split; [reflexivity|]. split; [exact (proj1 S2)|]. split; [reflexivity|]. exists [1; 0; 0]. split; [reflexivity|]. split; [exact U|]. split; [cbn; repeat (f_equal; try ring)|exact FC]. }
  set (f := still (positions bar)). assert (Ff : field 12 3 f) by (split; [reflexivity|repeat constructor]).
  assert (MQ : matrix3 stretch) by (split; [reflexivity|repeat constructor]).
  destruct (C97_boundary steel bar 1 [0; 0; 0] stretch f bar_solid bar_numbered I eq_refl MQ Ff) as (f1 & A & F1 & W).
  set (loads := [(pull_left, st1); (pull_triangles, st2)]).
  destruct (loads_sum bar (traction_of 1 P) bar_solid loads f1) as (f' & E & F' & N).
  { apply Forall_cons; [split; [exact B1|split; [reflexivity|exact A1]]|apply Forall_cons; [split; [exact B2|split; [reflexivity|exact A2]]|apply Forall_nil]]. }
  { exact F1. }
  exists st1, st2, f, f'. split; [exact A1|]. split; [exact A2|]. split; [exact Ff|]. split; [apply Forall_cons; [exact B1|apply Forall_cons; [exact B2|apply Forall_nil]]|]. split; [rewrite A; exact E|].
  change (entries f' 5 0) with (nth 0 (nth 5 f' []) 0). rewrite N. change (nth 0 (nth 5 f1 []) 0) with (entries f1 5 0).
  rewrite (W 5%nat (link bar 5) [] ltac:(rewrite app_nil_r; apply Permutation_refl) ltac:(apply perm_nil) 0%nat ltac:(lia)), bar_stress.
  rewrite (loads_shares bar 1 P bar_solid loads 5 0 ltac:(lia)) by (apply Forall_cons; [exact B1|apply Forall_cons; [exact B2|apply Forall_nil]]).
  match goal with |- ?x - 1 * ?a + 1 * ?b <> _ => assert (Ea : a = 6 / 4); [|assert (Eb : b = 1)] end.
  - cbv -[Rplus Rmult Rminus Ropp Rdiv Rinv IZR]. field.
  - cbv -[Rplus Rmult Rminus Ropp Rdiv Rinv IZR]. field.
  - rewrite Ea, Eb. lra.
Qed.
Print Assumptions C98_matching_faces_needed.
