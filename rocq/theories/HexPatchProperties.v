(** C97, continued: quadratic hexahedra that are not parallelepipeds. *)

From Coq Require Import ZArith Reals Lra Lia.
From Coquelicot Require Import Coquelicot.
From Coq Require Import List Arith Bool Permutation.
From Verif Require Import GridGeoModel ShapeModel ShapeSpec LinAlg LinAlgProofs BarycentricModel MappingSpec MappingProofs TensorModel TensorSpec
  MaterialModel MaterialSpec MaterialProofs SparseModel SparseProofs Sums HyperModel HyperSpec HyperProofs HyperProofs2 HyperProperties
  EnergySpec EnergyProofs PatchSpec PatchProofs PatchProofs2 PatchProofs5 PatchProperties HexPatchSpec HexPatchProofs HexPatchProofs2.
Import ListNotations.
Open Scope R_scope.

(** Straight edges with a node halfway are enough: the faces of the hexahedra may be parallel or not, plane or not. *)
Theorem C97_straight_edges :
  forall (m : material) (d : domain) (s : R) (t : list R) (Q f : list (list R)),
  solid d -> kind d = Hexahedron_Quadratic -> (forall row, In row (connectivity d) -> straight_edges d row) -> numbered_alike d s ->
  length t = 3%nat -> matrix3 Q -> field (length (positions d)) 3 f ->
  exists f', addForce m d (placed t Q (positions d)) f = Some f' /\
    (forall p, interior d p -> nth p f' [] = nth p f []) /\
    forall p uncovered covered, Permutation (link d p) (uncovered ++ covered) -> paired covered ->
      forall c, (c < 3)%nat ->
      entries f' p c = entries f p c - s * sum3 (fun k => entries (product Q (PK2_stress m (det Q) (cauchy_green Q))) c k * bilinear_shares d uncovered k).
Proof.
  intros m d s t Q f Sd KD SE NA Lt MQ Ff. destruct (trilinear_force d s Sd KD SE NA m t Q f 0 0 Lt MQ Ff ltac:(lia)) as (f' & A & Ff' & _).
  assert (W : forall p uncovered covered, Permutation (link d p) (uncovered ++ covered) -> paired covered -> forall c, (c < 3)%nat ->
      entries f' p c = entries f p c - s * sum3 (fun k => entries (product Q (PK2_stress m (det Q) (cauchy_green Q))) c k * bilinear_shares d uncovered k)).
  { intros p B I P PI c Hc. destruct (trilinear_force d s Sd KD SE NA m t Q f p c Lt MQ Ff Hc) as (f'' & A' & _ & W). rewrite A in A'. injection A' as <-. rewrite W. f_equal. f_equal.
    apply sum3_ext. intros k Hk. fold (stress_power m Q). f_equal. exact (bilinear_split d _ B I k Sd Hk P PI). }
  exists f'. split; [exact A|]. split; [|exact W].
  intros p IP. apply (same_row (length (positions d))); [exact Ff|exact Ff'|].
  intros c Hc. rewrite (W p [] (link d p) (Permutation_refl _) IP c Hc). unfold bilinear_shares, sum3. cbn [map Rsum fold_right]. ring.
Qed.
Print Assumptions C97_straight_edges.

(** Bent edges: a node inside the mesh receives a force, although the state is uniform. *)
Theorem C97_curved_hexahedra_refuted :
  exists (m : material) (d : domain) (Q f f' : list (list R)) (p : nat),
    kind d = Hexahedron_Quadratic /\ solid d /\ numbered_alike d 1 /\ interior d p /\ (p < length (positions d))%nat /\ matrix3 Q /\ 0 < det Q /\ field (length (positions d)) 3 f /\
    addForce m d (placed [0; 0; 0] Q (positions d)) f = Some f' /\ entries f' p 0 <> entries f p 0.
Proof.
  set (m := {| kind_of := SaintVenantKirchhoff; mu := 1; lambda := 0 |}).
  set (f := still (positions bent_pipe)).
  assert (Ff : field (length (positions bent_pipe)) 3 f) by (split; [reflexivity|repeat constructor]).
  assert (MQ : matrix3 stretch) by (split; [reflexivity|repeat constructor]).
  destruct (patch_integral bent_pipe 1 bent_pipe_solid bent_pipe_numbered m [0; 0; 0] stretch f 16 0 eq_refl MQ Ff ltac:(lia)) as (f' & A & _ & W).
  exists m, bent_pipe, stretch, f, f', 16%nat. split; [reflexivity|]. split; [exact bent_pipe_solid|]. split; [exact bent_pipe_numbered|]. split; [exact bent_pipe_interior|].
  split; [cbn; lia|]. split; [exact MQ|]. split; [unfold det, stretch; cbn; lra|]. split; [exact Ff|]. split; [exact A|]. rewrite W.
  assert (P : forall k, (k < 3)%nat -> entries (stress_power m stretch) 0 k = if Nat.eqb k 0 then 6 else 0).
  { intros k Hk. destruct k as [|[|[|] ] ]; try lia; cbv -[Rplus Rmult Rminus Ropp Rdiv Rinv IZR]; field. }
  unfold sum3. rewrite !P by lia. cbn [Nat.eqb]. pose proof bent_pipe_sum as S. cbn [kind bent_pipe NumberOfNodes] in *. rewrite S. lra.
Qed.
Print Assumptions C97_curved_hexahedra_refuted.

(** The two hexahedra of the pipe with the nodes halfway: prisms with a triangular section, not parallelepipeds. *)
Definition pipe : domain :=
  {| dim := 3; kind := Hexahedron_Quadratic;
     positions := [ [0; 0; -1]; [1; 0; -1]; [0; 1; -1]; [-1; 0; -1]; [0; 0; 1]; [1; 0; 1]; [0; 1; 1]; [-1; 0; 1];
                    [1/2; 0; -1]; [1/2; 1/2; -1]; [-1/2; 1/2; -1]; [-1/2; 0; -1]; [1/2; 0; 1]; [1/2; 1/2; 1]; [-1/2; 1/2; 1]; [-1/2; 0; 1];
                    [0; 0; 0]; [1; 0; 0]; [0; 1; 0]; [-1; 0; 0];
                    [0; -1; -1]; [0; -1; 1]; [-1/2; -1/2; -1]; [1/2; -1/2; -1]; [-1/2; -1/2; 1]; [1/2; -1/2; 1]; [0; -1; 0] ];
     connectivity := connectivity bent_pipe |}.
Lemma pipe_straight row : In row (connectivity pipe) -> straight_edges pipe row.
Proof.
  intros Hr m i j He. cbn in Hr. unfold edges in He. cbn [In] in He.
  repeat (destruct Hr as [<-|Hr]; [repeat (destruct He as [He|He]; [injection He as <- <- <-; unfold nodes_of_element; cbn [map nth positions pipe]; unfold vscale, vadd; cbn; repeat (apply f_equal2; [lra|]); reflexivity|]); destruct He|]). destruct Hr.
Qed.
Lemma pipe_jacobian row u v w : In row (connectivity pipe) -> exists s, s * s = 1 /\ jacobian 3 Hexahedron_Quadratic (nodes_of_element pipe row) [u; v; w] =
  [ [s * (1/2); s * (-1/2); 0]; [s * ((1 + v)/4); s * ((1 + u)/4); 0]; [0; 0; 1] ].
Proof.
  intros Hr. cbn in Hr. destruct Hr as [<-|[<-|[] ] ]; [exists 1|exists (-1)]; (split; [lra|]); unfold jacobian; cbv -[Rplus Rmult Rminus Ropp Rdiv Rinv IZR];
  repeat (apply f_equal2; [repeat (apply f_equal2; [field|]); reflexivity|]); reflexivity.
Qed.
Lemma pipe_solid : solid pipe.
Proof.
  split; [|split; [reflexivity|split; [reflexivity|repeat constructor] ] ].
  apply Forall_forall. intros row Hr. cbn in Hr. repeat (destruct Hr as [<-|Hr]; [split; [reflexivity|repeat constructor; cbn; lia]|]). destruct Hr.
Qed.
Lemma pipe_numbered : numbered_alike pipe 1.
Proof.
  split; [left; reflexivity|]. apply Forall_forall. intros row Hr. apply Forall_forall. intros g Hg.
  assert (B : exists u v w, fst g = [u; v; w] /\ (u = 1 / sqrt 3 \/ u = -1 / sqrt 3) /\ (v = 1 / sqrt 3 \/ v = -1 / sqrt 3)).
  { cbn [kind pipe gauss_nodes] in Hg. unfold Hexahedron_Quadratic_gauss in Hg. cbn [In] in Hg.
    repeat (destruct Hg as [<-|Hg]; [eexists _, _, _; split; [reflexivity|]; tauto|]). destruct Hg. }
  destruct B as (u & v & w & -> & Hu & Hv). destruct root3_bounds as (r & E1 & E2 & _ & Lo & Hi). rewrite E1, E2 in Hu, Hv. unfold local_volume.
  cbn [kind pipe]. destruct (pipe_jacobian row u v w Hr) as (s & S1 & ->).
  assert (V : 0 < 1 * ((s * s) * (1 / 8 * (2 + u + v)))) by (rewrite S1; destruct Hu as [-> | ->], Hv as [-> | ->]; lra).
  replace (det _) with ((s * s) * (1 / 8 * (2 + u + v))); [exact V|]. unfold det. cbn. field.
Qed.
Example C97_pipe : forall m t Q f, length t = 3%nat -> matrix3 Q -> field 27 3 f ->
  exists f', addForce m pipe (placed t Q (positions pipe)) f = Some f' /\ nth 16 f' [] = nth 16 f [].
Proof.
  intros m t Q f Lt MQ Ff. destruct (C97_straight_edges m pipe 1 t Q f pipe_solid eq_refl pipe_straight pipe_numbered Lt MQ Ff) as (f' & A & H & _). exists f'. split; [exact A|]. exact (H 16%nat bent_pipe_interior).
Qed.
(** ... which are no parallelepipeds: C97_boundary says nothing about them. *)
Example C97_pipe_not_patchable : ~ patchable pipe.
Proof.
  intros P. destruct (P (seq 0 20) (or_introl eq_refl)) as (t & M & Lt & MM & E). pose proof (jacobian_straight Hexahedron_Quadratic t M [0; 1; 0] ltac:(tauto) Lt MM eq_refl) as J1.
  pose proof (jacobian_straight Hexahedron_Quadratic t M [0; -1; 0] ltac:(tauto) Lt MM eq_refl) as J2. cbn [kind pipe] in E. rewrite <- E in J1, J2. rewrite <- J2 in J1.
  apply (f_equal (fun A => entries A 1 0)) in J1. revert J1. unfold entries, jacobian. cbv -[Rplus Rmult Rminus Ropp Rdiv Rinv IZR]. lra.
Qed.
