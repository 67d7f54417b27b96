(** Linear hexahedra of any shape: motions without strain are rigid (C93).

    At each of the eight integration points the motion has a spin.  Between two neighbouring integration points the field
    is linear, so that both spins give the same motion of the segment between them: they differ by a multiple of it.  The
    eight spins are those of a linkage of eight solids joined by twelve hinges along the edges of a cube. *)

From Coq Require Import ZArith Reals Lra Lia.
From Coquelicot Require Import Coquelicot.
From Coq Require Import List Arith Bool.
From Verif Require Import GridGeoModel ShapeModel ShapeSpec ShapeProofs ShapeFieldProofs ShapeGaussProofs LinAlg LinAlgProofs RectSpec NewtonLocalProofs BarycentricModel MappingSpec MappingProofs TensorModel TensorSpec
  MaterialModel MaterialSpec MaterialProofs MaterialProperties SparseModel SparseProofs Sums HyperModel HyperSpec HyperProofs HyperProofs2 HyperProofs3 HyperProofs4 HyperProperties
  SpectrumProofs StabilitySpec StabilityProofs StabilityProofs2 StabilityProofs3 StabilityProofs4 StabilityProofs5.
Import ListNotations.
Open Scope R_scope.

(** ** Two solids with a common segment *)
Definition vec := nat -> R.
Definition sub (x y : vec) : vec := fun i => x i - y i.
Definition spin (w e : vec) : vec := motion (fun _ => 0) w e.
Definition triple (p q r : vec) : R :=
  p 0%nat * (q 1%nat * r 2%nat - q 2%nat * r 1%nat) - p 1%nat * (q 0%nat * r 2%nat - q 2%nat * r 0%nat) + p 2%nat * (q 0%nat * r 1%nat - q 1%nat * r 0%nat).
Definition same (x y : vec) : Prop := forall i, (i < 3)%nat -> x i = y i.
Definition edge (x u w x' u' w' : vec) : Prop := same (sub u' u) (spin w (sub x' x)) /\ same (sub u' u) (spin w' (sub x' x)).

Lemma edge_sym x u w x' u' w' : edge x u w x' u' w' -> edge x' u' w' x u w.
Proof.
  intros [E F]. split; intros i Hi; [specialize (F i Hi)|specialize (E i Hi)]; unfold sub, spin, motion in *; destruct i as [|[|[|]]]; try lia; lra.
Qed.
Lemma spin_parallel o e f h : triple e f h <> 0 -> same (spin o e) (fun _ => 0) -> exists m, same o (fun i => m * e i).
Proof.
  intros N Z. exists (triple o f h / triple e f h). intros i Hi.
  pose proof (Z 0%nat ltac:(lia)) as Z0. pose proof (Z 1%nat ltac:(lia)) as Z1. pose proof (Z 2%nat ltac:(lia)) as Z2. unfold spin, motion in Z0, Z1, Z2.
  apply (Rmult_eq_reg_r (triple e f h)); [|exact N].
  transitivity (triple o f h * e i + ((o 1%nat * e 2%nat - o 2%nat * e 1%nat) * (f 0%nat * h i - h 0%nat * f i) + (o 2%nat * e 0%nat - o 0%nat * e 2%nat) * (f 1%nat * h i - h 1%nat * f i) +
    (o 0%nat * e 1%nat - o 1%nat * e 0%nat) * (f 2%nat * h i - h 2%nat * f i))).
  - unfold triple. destruct i as [|[|[|]]]; try lia; ring.
  - replace (o 1%nat * e 2%nat - o 2%nat * e 1%nat) with 0 by lra. replace (o 2%nat * e 0%nat - o 0%nat * e 2%nat) with 0 by lra. replace (o 0%nat * e 1%nat - o 1%nat * e 0%nat) with 0 by lra.
    field. exact N.
Qed.
Lemma edge_hinge x u w x' u' w' f h : edge x u w x' u' w' -> triple (sub x' x) f h <> 0 -> exists m, forall i, (i < 3)%nat -> w' i = w i + m * sub x' x i.
Proof.
  intros [E F] N. destruct (spin_parallel (sub w' w) (sub x' x) f h N) as [m M].
  - intros i Hi. specialize (E i Hi). specialize (F i Hi). rewrite E in F. unfold spin, motion, sub in *. destruct i as [|[|[|]]]; try lia; lra.
  - exists m. intros i Hi. specialize (M i Hi). unfold sub in *. lra.
Qed.

(** ** Four solids around a quadrilateral *)
Section Face.
Context (A B C D uA uB uC uD wA wB wC wD r : vec) (a b : R).
Hypothesis AB : edge A uA wA B uB wB.
Hypothesis AD : edge A uA wA D uD wD.
Hypothesis BC : edge B uB wB C uC wC.
Hypothesis DC : edge D uD wD C uC wC.
Hypothesis Ha : forall i, (i < 3)%nat -> wB i = wA i + a * sub B A i.
Hypothesis Hb : forall i, (i < 3)%nat -> wD i = wA i + b * sub D A i.
Hypothesis N : triple (sub B A) (sub D A) r <> 0.

Lemma loop : same (spin (fun i => a * sub B A i - b * sub D A i) (sub C A)) (fun _ => 0).
Proof.
  intros i Hi. pose proof (proj1 AB i Hi) as E1. pose proof (proj1 AD i Hi) as E2. pose proof (proj1 BC i Hi) as E3. pose proof (proj1 DC i Hi) as E4.
  unfold spin, motion in E3, E4. rewrite !Ha in E3 by lia. rewrite !Hb in E4 by lia. unfold spin, motion, sub in *.
  destruct i as [|[|[|]]]; try lia; lra.
Qed.
Definition opp (s t : R) : Prop := (0 < s <-> t < 0) /\ (s < 0 <-> 0 < t).
Lemma face_opposite (O : forall al be, same (sub C A) (fun i => al * sub B A i + be * sub D A i) -> 0 < al /\ 0 < be) : opp a b.
Proof.
  set (p := sub B A) in *. set (q := sub D A) in *. set (m := sub C A) in *.
  pose proof (loop 0%nat ltac:(lia)) as L0. pose proof (loop 1%nat ltac:(lia)) as L1. pose proof (loop 2%nat ltac:(lia)) as L2. unfold spin, motion in L0, L1, L2.
  set (al := triple m q r / triple p q r). set (be := triple p m r / triple p q r). set (ga := triple p q m / triple p q r).
  assert (M : same m (fun i => al * p i + be * q i + ga * r i)).
  { intros i Hi. unfold al, be, ga. unfold triple in *. destruct i as [|[|[|]]]; try lia; field; exact N. }
  assert (Q1 : (a * be + b * al) * triple p q r = 0).
  { unfold al, be. replace (_ * _) with (a * triple p m r + b * triple m q r) by (field; exact N). unfold triple. unfold p, q, m in *.
    transitivity (r 0%nat * (0 + ((a * sub B A 1%nat - b * sub D A 1%nat) * sub C A 2%nat - (a * sub B A 2%nat - b * sub D A 2%nat) * sub C A 1%nat)) +
      r 1%nat * (0 + ((a * sub B A 2%nat - b * sub D A 2%nat) * sub C A 0%nat - (a * sub B A 0%nat - b * sub D A 0%nat) * sub C A 2%nat)) +
      r 2%nat * (0 + ((a * sub B A 0%nat - b * sub D A 0%nat) * sub C A 1%nat - (a * sub B A 1%nat - b * sub D A 1%nat) * sub C A 0%nat))); [ring|rewrite L0, L1, L2; ring]. }
  assert (Q2 : a * ga * triple p q r = 0).
  { unfold ga. replace (_ * _) with (a * triple p q m) by (field; exact N). unfold triple. unfold p, q, m in *.
    transitivity (- (sub D A 0%nat * (0 + ((a * sub B A 1%nat - b * sub D A 1%nat) * sub C A 2%nat - (a * sub B A 2%nat - b * sub D A 2%nat) * sub C A 1%nat)) +
      sub D A 1%nat * (0 + ((a * sub B A 2%nat - b * sub D A 2%nat) * sub C A 0%nat - (a * sub B A 0%nat - b * sub D A 0%nat) * sub C A 2%nat)) +
      sub D A 2%nat * (0 + ((a * sub B A 0%nat - b * sub D A 0%nat) * sub C A 1%nat - (a * sub B A 1%nat - b * sub D A 1%nat) * sub C A 0%nat)))); [ring|rewrite L0, L1, L2; ring]. }
  assert (Q3 : b * ga * triple p q r = 0).
  { unfold ga. replace (_ * _) with (b * triple p q m) by (field; exact N). unfold triple. unfold p, q, m in *.
    transitivity (- (sub B A 0%nat * (0 + ((a * sub B A 1%nat - b * sub D A 1%nat) * sub C A 2%nat - (a * sub B A 2%nat - b * sub D A 2%nat) * sub C A 1%nat)) +
      sub B A 1%nat * (0 + ((a * sub B A 2%nat - b * sub D A 2%nat) * sub C A 0%nat - (a * sub B A 0%nat - b * sub D A 0%nat) * sub C A 2%nat)) +
      sub B A 2%nat * (0 + ((a * sub B A 0%nat - b * sub D A 0%nat) * sub C A 1%nat - (a * sub B A 1%nat - b * sub D A 1%nat) * sub C A 0%nat)))); [ring|rewrite L0, L1, L2; ring]. }
  apply Rmult_integral in Q1. destruct Q1 as [Q1|Q1]; [|contradiction]. apply Rmult_integral in Q2. destruct Q2 as [Q2|Q2]; [|contradiction].
  apply Rmult_integral in Q3. destruct Q3 as [Q3|Q3]; [|contradiction].
  destruct (Req_dec ga 0) as [G|G].
  - destruct (O al be) as [P1 P2].
    { intros i Hi. rewrite (M i Hi), G. ring. }
    clearbody al be. clear - Q1 P1 P2. unfold opp. split; split; intros H; nra.
  - apply Rmult_integral in Q2. destruct Q2 as [Q2|Q2]; [|contradiction]. apply Rmult_integral in Q3. destruct Q3 as [Q3|Q3]; [|contradiction].
    unfold opp. rewrite Q2, Q3. lra.
Qed.
End Face.
Lemma pairwise_opposite a b c : opp a b -> opp b c -> opp a c -> a = 0 /\ b = 0 /\ c = 0.
Proof.
  intros [A1 A2] [B1 B2] [C1 C2]. destruct (Rtotal_order a 0) as [H|[H|H]].
  - pose proof (proj1 A2 H). pose proof (proj1 C2 H). pose proof (proj1 B1 ltac:(assumption)). lra.
  - split; [exact H|]. split.
    + destruct (Rtotal_order b 0) as [K|[K|K]]; [apply A1 in K; lra|exact K|apply A2 in K; lra].
    + destruct (Rtotal_order c 0) as [K|[K|K]]; [apply C1 in K; lra|exact K|apply C2 in K; lra].
  - pose proof (proj1 A1 H). pose proof (proj1 C1 H). pose proof (proj1 B2 ltac:(assumption)). lra.
Qed.
(** Three solids with the same spin give it to the fourth. *)
Lemma fourth (B C D uB uC uD wA wB wC wD k : vec) : edge C uC wC B uB wB -> edge C uC wC D uD wD -> triple (sub B C) (sub D C) k <> 0 ->
  same wB wA -> same wD wA -> same wC wA.
Proof.
  intros CB CD N SB SD. destruct (edge_hinge _ _ _ _ _ _ _ _ CB N) as [c Hc].
  assert (N' : triple (sub D C) (sub B C) k <> 0) by (intros Z; apply N; rewrite <- Ropp_0, <- Z; unfold triple; ring).
  destruct (edge_hinge _ _ _ _ _ _ _ _ CD N') as [e He].
  assert (E : forall i, (i < 3)%nat -> c * sub B C i = e * sub D C i).
  { intros i Hi. specialize (Hc i Hi). specialize (He i Hi). rewrite (SB i Hi) in Hc. rewrite (SD i Hi) in He. lra. }
  assert (Z : c * triple (sub B C) (sub D C) k = 0).
  { pose proof (E 0%nat ltac:(lia)) as E0. pose proof (E 1%nat ltac:(lia)) as E1. pose proof (E 2%nat ltac:(lia)) as E2. set (f := sub B C) in *. set (h := sub D C) in *.
    transitivity ((c * f 0%nat) * (h 1%nat * k 2%nat - h 2%nat * k 1%nat) - (c * f 1%nat) * (h 0%nat * k 2%nat - h 2%nat * k 0%nat) + (c * f 2%nat) * (h 0%nat * k 1%nat - h 1%nat * k 0%nat)); [unfold triple; ring|].
    rewrite E0, E1, E2. ring. }
  apply Rmult_integral in Z. destruct Z as [Z|Z]; [|contradiction]. intros i Hi. specialize (Hc i Hi). rewrite Z, (SB i Hi) in Hc. lra.
Qed.

(** ** Eight solids at the corners of a cube *)
Section Cube.
Context (x u w : bool -> bool -> bool -> vec).
Hypothesis Ex : forall a b c, edge (x a b c) (u a b c) (w a b c) (x (negb a) b c) (u (negb a) b c) (w (negb a) b c).
Hypothesis Ey : forall a b c, edge (x a b c) (u a b c) (w a b c) (x a (negb b) c) (u a (negb b) c) (w a (negb b) c).
Hypothesis Ez : forall a b c, edge (x a b c) (u a b c) (w a b c) (x a b (negb c)) (u a b (negb c)) (w a b (negb c)).
Hypothesis N : forall a b c, triple (sub (x (negb a) b c) (x a b c)) (sub (x a (negb b) c) (x a b c)) (sub (x a b (negb c)) (x a b c)) <> 0.
Definition opening (A B C D : vec) : Prop := forall al be, same (sub C A) (fun i => al * sub B A i + be * sub D A i) -> 0 < al /\ 0 < be.

Lemma triple_perm p q r : triple p q r <> 0 -> triple q p r <> 0 /\ triple p r q <> 0 /\ triple r p q <> 0 /\ triple q r p <> 0 /\ triple r q p <> 0.
Proof. intros H. repeat split; intros Z; apply H; (rewrite <- Z; unfold triple; ring) || (rewrite <- Ropp_0, <- Z; unfold triple; ring). Qed.

Lemma cube_spin a b c :
  opening (x a b c) (x (negb a) b c) (x (negb a) (negb b) c) (x a (negb b) c) ->
  opening (x a b c) (x a (negb b) c) (x a (negb b) (negb c)) (x a b (negb c)) ->
  opening (x a b c) (x (negb a) b c) (x (negb a) b (negb c)) (x a b (negb c)) ->
  forall a' b' c', same (w a' b' c') (w a b c).
Proof.
  intros O1 O2 O3.
  destruct (triple_perm _ _ _ (N a b c)) as (P1 & P2 & P3 & P4 & P5).
  destruct (edge_hinge _ _ _ _ _ _ _ _ (Ex a b c) (N a b c)) as [l Hl].
  destruct (edge_hinge _ _ _ _ _ _ _ _ (Ey a b c) P1) as [m Hm].
  destruct (edge_hinge _ _ _ _ _ _ _ _ (Ez a b c) P3) as [n Hn].
  assert (Z : l = 0 /\ m = 0 /\ n = 0).
  { apply pairwise_opposite.
    - eapply face_opposite; [apply Ex|apply Ey|apply Ey|apply Ex|exact Hl|exact Hm|exact (N a b c)|exact O1].
    - eapply face_opposite; [apply Ey|apply Ez|apply Ez|apply Ey|exact Hm|exact Hn|exact P4|exact O2].
    - eapply face_opposite; [apply Ex|apply Ez|apply Ez|apply Ex|exact Hl|exact Hn|exact P2|exact O3]. }
  destruct Z as (Zl & Zm & Zn).
  assert (S1 : same (w (negb a) b c) (w a b c)) by (intros i Hi; rewrite (Hl i Hi), Zl; ring).
  assert (S2 : same (w a (negb b) c) (w a b c)) by (intros i Hi; rewrite (Hm i Hi), Zm; ring).
  assert (S3 : same (w a b (negb c)) (w a b c)) by (intros i Hi; rewrite (Hn i Hi), Zn; ring).
  assert (Q := fun a b c => triple_perm _ _ _ (N a b c)).
  assert (Fx : forall a b c, edge (x (negb a) b c) (u (negb a) b c) (w (negb a) b c) (x a b c) (u a b c) (w a b c)) by (intros; apply edge_sym, Ex).
  assert (Fy : forall a b c, edge (x a (negb b) c) (u a (negb b) c) (w a (negb b) c) (x a b c) (u a b c) (w a b c)) by (intros; apply edge_sym, Ey).
  assert (Fz : forall a b c, edge (x a b (negb c)) (u a b (negb c)) (w a b (negb c)) (x a b c) (u a b c) (w a b c)) by (intros; apply edge_sym, Ez).
  assert (S12 : same (w (negb a) (negb b) c) (w a b c)).
  { pose proof (N (negb a) (negb b) c) as NN. rewrite !negb_involutive in NN.
    apply (fourth _ _ _ _ _ _ _ _ _ _ _ (Fx a (negb b) c) (Fy (negb a) b c) NN S2 S1). }
  assert (S23 : same (w a (negb b) (negb c)) (w a b c)).
  { pose proof (proj1 (proj2 (proj2 (proj2 (Q a (negb b) (negb c)))))) as NN. rewrite !negb_involutive in NN.
    apply (fourth _ _ _ _ _ _ _ _ _ _ _ (Fy a b (negb c)) (Fz a (negb b) c) NN S3 S2). }
  assert (S13 : same (w (negb a) b (negb c)) (w a b c)).
  { pose proof (proj1 (proj2 (Q (negb a) b (negb c)))) as NN. rewrite !negb_involutive in NN.
    apply (fourth _ _ _ _ _ _ _ _ _ _ _ (Fx a b (negb c)) (Fz (negb a) b c) NN S3 S1). }
  assert (S123 : same (w (negb a) (negb b) (negb c)) (w a b c)).
  { pose proof (N (negb a) (negb b) (negb c)) as NN. rewrite !negb_involutive in NN.
    apply (fourth _ _ _ _ _ _ _ _ _ _ _ (Fx a (negb b) (negb c)) (Fy (negb a) b (negb c)) NN S23 S13). }
  intros a' b' c'. assert (R : forall p q, q = p \/ q = negb p) by (intros [] []; cbn; tauto).
  destruct (R a a') as [-> | ->], (R b b') as [-> | ->], (R c c') as [-> | ->]; try assumption. intros i Hi. reflexivity.
Qed.
End Cube.
