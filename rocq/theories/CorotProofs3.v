From Coq Require Import ZArith Reals Lra Lia.
From Coquelicot Require Import Coquelicot.
From Coq Require Import List Arith Bool.
From Flocq Require Import Core.Raux.
From Verif Require Import GridGeoModel ShapeModel ShapeSpec ShapeProofs ShapeFieldProofs LinAlg LinAlgProofs RectModel RectProofs BarycentricModel MappingSpec MappingProofs TensorModel TensorSpec
  MaterialModel MaterialSpec MaterialProofs MaterialProperties SparseModel SparseProofs Sums TractionModel TractionProofs HyperModel HyperSpec HyperProofs HyperProofs2 HyperProofs3 HyperProofs4 CorotModel CorotSpec CorotProofs CorotProofs2.
Import ListNotations.
Open Scope R_scope.

(** ** Frames of rigidly moved nodes *)

Ltac list3 := repeat match goal with |- _ :: _ = _ :: _ => apply f_equal2 | |- [] = [] => reflexivity end.

Lemma squaredNorm_rotated Q v : rotation Q -> length v = 3%nat -> squaredNorm (matvec Q v) = squaredNorm v.
Proof.
  intros HQ Lv. destruct (rotation_entries Q HQ) as (a & b & c & d & e & f & g & h & i & -> & A & B & C & D & E & F & _).
  destruct (len3 _ _ Lv) as (x & y & z & ->). unfold squaredNorm, matvec, vdot. cbn.
  transitivity ((a*a+d*d+g*g) * (x*x) + (b*b+e*e+h*h) * (y*y) + (c*c+f*f+i*i) * (z*z) + 2 * (a*b+d*e+g*h) * (x*y) + 2 * (a*c+d*f+g*i) * (x*z) + 2 * (b*c+e*f+h*i) * (y*z)); [ring|].
  rewrite A, B, C, D, E, F. ring.
Qed.
Lemma normalized_rotated Q v : rotation Q -> length v = 3%nat -> normalized (matvec Q v) = matvec Q (normalized v).
Proof.
  intros HQ Lv. unfold normalized, norm. rewrite (squaredNorm_rotated Q v HQ Lv). destruct (Rlt_bool 0 (squaredNorm v)); [|reflexivity].
  destruct (matrix3_cases Q (proj1 HQ)) as (a & b & c & d & e & f & g & h & i & ->). destruct (len3 _ _ Lv) as (x & y & z & ->).
  unfold matvec, vdot. cbn [map map2 Rsum fold_right]. list3; unfold Rdiv; ring.
Qed.
Lemma vcross_rotated Q u v : rotation Q -> length u = 3%nat -> length v = 3%nat -> vcross (matvec Q u) (matvec Q v) = matvec Q (vcross u v).
Proof.
  intros HQ Lu Lv. destruct (rotation_entries Q HQ) as (a & b & c & d & e & f & g & h & i & -> & _ & _ & _ & _ & _ & _ & (A & B & C & D & E & F & G & H & I)).
  destruct (len3 _ _ Lu) as (x & y & z & ->). destruct (len3 _ _ Lv) as (p & q & r & ->).
  unfold vcross, matvec, vdot. cbn. list3.
  - transitivity ((e*i-f*h) * (y*r-z*q) + (f*g-d*i) * (z*p-x*r) + (d*h-e*g) * (x*q-y*p)); [ring|]. rewrite <- A, <- B, <- C. ring.
  - transitivity ((c*h-b*i) * (y*r-z*q) + (a*i-c*g) * (z*p-x*r) + (b*g-a*h) * (x*q-y*p)); [ring|]. rewrite <- D, <- E, <- F. ring.
  - transitivity ((b*f-c*e) * (y*r-z*q) + (c*d-a*f) * (z*p-x*r) + (a*e-b*d) * (x*q-y*p)); [ring|]. rewrite <- G, <- H, <- I. ring.
Qed.
Lemma vminus_rigid Q t p q : matrix3 Q -> length t = 3%nat -> length p = 3%nat -> length q = 3%nat ->
  vminus (vadd (matvec Q p) t) (vadd (matvec Q q) t) = matvec Q (vminus p q).
Proof.
  intros HQ Lt Lp Lq. destruct (matrix3_cases Q HQ) as (a & b & c & d & e & f & g & h & i & ->).
  destruct (len3 _ _ Lt) as (? & ? & ? & ->). destruct (len3 _ _ Lp) as (? & ? & ? & ->). destruct (len3 _ _ Lq) as (? & ? & ? & ->).
  unfold vminus, vadd, matvec, vdot. cbn. list3; ring.
Qed.
Lemma transpose_rotated Q u v w : matrix3 Q -> length u = 3%nat -> length v = 3%nat -> length w = 3%nat ->
  transpose 3 [matvec Q u; matvec Q v; matvec Q w] = matmul 3 Q (transpose 3 [u; v; w]).
Proof.
  intros HQ Lu Lv Lw. destruct (matrix3_cases Q HQ) as (a & b & c & d & e & f & g & h & i & ->).
  destruct (len3 _ _ Lu) as (? & ? & ? & ->). destruct (len3 _ _ Lv) as (? & ? & ? & ->). destruct (len3 _ _ Lw) as (? & ? & ? & ->).
  reflexivity.
Qed.
Lemma normalized_length v : length (normalized v) = length v.
Proof. unfold normalized. destruct (Rlt_bool _ _); [apply map_length|reflexivity]. Qed.
Lemma vminus_length3 p q : length p = 3%nat -> length q = 3%nat -> length (vminus p q) = 3%nat.
Proof. intros Lp Lq. unfold vminus. rewrite map2_combine, map_length, combine_length. lia. Qed.

(** Both frames are built from two edges. *)
Definition frame_of_edges (a b : list R) : list (list R) :=
  let u := normalized a in let v := normalized b in
  let w := normalized (vcross u v) in let v := normalized (vcross w u) in transpose 3 [u; v; w].
Lemma frame_of_edges_rotated Q a b : rotation Q -> length a = 3%nat -> length b = 3%nat ->
  frame_of_edges (matvec Q a) (matvec Q b) = matmul 3 Q (frame_of_edges a b).
Proof.
  intros HQ La Lb. unfold frame_of_edges. cbv zeta.
  rewrite (normalized_rotated Q a HQ La), (normalized_rotated Q b HQ Lb).
  rewrite vcross_rotated by (rewrite ?normalized_length; assumption). rewrite normalized_rotated by (assumption || reflexivity).
  rewrite vcross_rotated by (rewrite ?normalized_length; assumption || reflexivity). rewrite normalized_rotated by (assumption || reflexivity).
  apply transpose_rotated; [apply HQ|rewrite ?normalized_length; assumption || reflexivity ..].
Qed.

Lemma interpolated_rigid Q t : matrix3 Q -> length t = 3%nat -> forall nodes w, Forall (fun p => length p = 3%nat) nodes -> length nodes = length w ->
  map (fun c => Rsum (map2 (fun row l => nth c row 0 * l) (rigid Q t nodes) w)) (seq 0 3) =
  vadd (matvec Q (map (fun c => Rsum (map2 (fun row l => nth c row 0 * l) nodes w)) (seq 0 3))) (map (fun x => Rsum w * x) t).
Proof.
  intros HQ Lt. destruct (matrix3_cases Q HQ) as (a & b & c & d & e & f & g & h & i & ->). destruct (len3 _ _ Lt) as (t0 & t1 & t2 & ->).
  induction nodes as [|p nodes IH]; intros [|l w] F L; try discriminate.
  - unfold rigid, vadd, matvec, vdot. cbn. list3; ring.
  - inversion_clear F as [|? ? Lp F']. specialize (IH w F' ltac:(simpl in L; lia)). destruct (len3 _ _ Lp) as (x & y & z & ->).
    unfold rigid in *. cbn [map map2 seq] in IH |- *. unfold vadd, matvec, vdot in *. cbn [map map2 seq Rsum fold_right nth] in IH |- *.
    change (fold_right Rplus 0) with Rsum in *. injection IH as I0 I1 I2. rewrite I0, I1, I2. list3; ring.
Qed.
Lemma world_rigid Q t e nodes xi : matrix3 Q -> length t = 3%nat -> Forall (fun p => length p = 3%nat) nodes -> length nodes = NumberOfNodes e -> length xi = CanonicalDimension e ->
  world_coordinates 3 e (rigid Q t nodes) xi = vadd (matvec Q (world_coordinates 3 e nodes xi)) t.
Proof.
  intros HQ Lt F Ln Lx. unfold world_coordinates, interpolate. rewrite (interpolated_rigid Q t HQ Lt nodes (L e xi) F) by (rewrite length_L; exact Ln).
  f_equal. rewrite partition_of_unity by exact Lx. destruct (len3 _ _ Lt) as (? & ? & ? & ->). cbn. list3; ring.
Qed.

Lemma frame_rigid k Q t nodes : rotation Q -> length t = 3%nat -> Forall (fun p => length p = 3%nat) nodes -> length nodes = NumberOfNodes (kind_of_elements k) ->
  frame k (rigid Q t nodes) = matmul 3 Q (frame k nodes).
Proof.
  intros HQ Lt F L. pose proof (proj1 HQ) as MQ. destruct k as [|o]; cbn [kind_of_elements NumberOfNodes] in L; cbn [frame].
  - change (tetrahedron_frame ?n) with (frame_of_edges (vminus (nth 1 n []) (nth 0 n [])) (vminus (nth 2 n []) (nth 0 n []))).
    assert (N : forall j, (j < 4)%nat -> nth j (rigid Q t nodes) [] = vadd (matvec Q (nth j nodes [])) t /\ length (nth j nodes []) = 3%nat).
    { intros j Hj. split; [apply (nth_map' _ _ (fun p => vadd (matvec Q p) t)); lia|apply (nth_Forall _ (fun p => length p = 3%nat)); [exact F|lia]]. }
    rewrite (proj1 (N 0%nat ltac:(lia))), (proj1 (N 1%nat ltac:(lia))), (proj1 (N 2%nat ltac:(lia))).
    rewrite !vminus_rigid by (assumption || apply N; lia).
    apply frame_of_edges_rotated; [exact HQ|apply vminus_length3; apply N; lia ..].
  - set (W := world_coordinates 3 Hexahedron_Linear).
    change (hexahedron_frame Hexahedron_Linear ?n [0; 0; 0]) with (frame_of_edges (vminus (W n [1; 0; 0]) (W n [0; 0; 0])) (vminus (W n [0; 1; 0]) (W n [0; 0; 0]))).
    unfold W. rewrite !world_rigid by (assumption || reflexivity).
    rewrite !vminus_rigid by (assumption || reflexivity).
    apply frame_of_edges_rotated; [exact HQ|reflexivity|reflexivity].
Qed.

Lemma gather_rigid N Q t x row : field N 3 x -> Forall (fun i => (i < N)%nat) row -> gather (rigid Q t x) row = rigid Q t (gather x row).
Proof.
  intros [L _] F. unfold gather, rigid. rewrite map_map. apply map_ext_in. intros i Hi. apply (nth_map' _ _ (fun p => vadd (matvec Q p) t)).
  rewrite L. exact (proj1 (Forall_forall _ _) F i Hi).
Qed.
Lemma gather_lengths N x row : field N 3 x -> Forall (fun i => (i < N)%nat) row -> Forall (fun p => length p = 3%nat) (gather x row).
Proof.
  intros Fx F. apply Forall_forall. intros p Hp. apply in_map_iff in Hp. destruct Hp as (i & <- & Hi).
  apply (field_row N x i Fx). exact (proj1 (Forall_forall _ _) F i Hi).
Qed.

(** (Q R0)^T (Q p + t) - R0^T p does not depend on p. *)
Lemma rigid_displacement N Q t R0 X row j k : rotation Q -> length t = 3%nat -> matrix3 R0 -> field N 3 X -> Forall (fun i => (i < N)%nat) row ->
  (j < length row)%nat -> (k < 3)%nat ->
  udisp R0 (matmul 3 Q R0) X (rigid Q t X) row j k = sum3 (fun l => entries R0 l k * sum3 (fun m => entries Q m l * nth m t 0)).
Proof.
  intros HQ Lt M0 FX Fr Hj Hk. unfold udisp.
  assert (Hr : (nth j row 0 < N)%nat) by (apply (proj1 (Forall_forall _ _) Fr); apply nth_In; exact Hj).
  set (p := nth j row 0%nat) in *. pose proof (field_row N X p FX Hr) as Lp.
  assert (Ep : nth p (rigid Q t X) [] = vadd (matvec Q (nth p X [])) t).
  { apply (nth_map' _ _ (fun p => vadd (matvec Q p) t)). destruct FX as [-> _]. exact Hr. }
  unfold entries at 2. rewrite Ep. unfold entries at 3.
  destruct (rotation_entries Q HQ) as (a & b & c & d & e & f & g & h & i & -> & A & B & C & D & E & F & _).
  destruct (matrix3_cases R0 M0) as (r00 & r01 & r02 & r10 & r11 & r12 & r20 & r21 & r22 & ->).
  destruct (len3 _ _ Lt) as (t0 & t1 & t2 & ->). destruct (len3 _ _ Lp) as (x & y & z & ->).
  unfold matmul, column, vadd, matvec, vdot, sum3, entries.
  assert (K : forall u v w, (a * u + (b * v + (c * w + 0))) * (a * x + (b * y + (c * z + 0)) + t0) + (d * u + (e * v + (f * w + 0))) * (d * x + (e * y + (f * z + 0)) + t1)
     + (g * u + (h * v + (i * w + 0))) * (g * x + (h * y + (i * z + 0)) + t2) - (u * x + v * y + w * z) =
     u * (a * t0 + d * t1 + g * t2) + v * (b * t0 + e * t1 + h * t2) + w * (c * t0 + f * t1 + i * t2)).
  { intros u v w. transitivity ((a*a+d*d+g*g) * (u*x) + (b*b+e*e+h*h) * (v*y) + (c*c+f*f+i*i) * (w*z) + (a*b+d*e+g*h) * (u*y+v*x) + (a*c+d*f+g*i) * (u*z+w*x) + (b*c+e*f+h*i) * (v*z+w*y)
      - (u * x + v * y + w * z) + u * (a * t0 + d * t1 + g * t2) + v * (b * t0 + e * t1 + h * t2) + w * (c * t0 + f * t1 + i * t2)); [ring|]. rewrite A, B, C, D, E, F. ring. }
  destruct k as [|[|[|]]]; try lia; cbn; apply K.
Qed.

(** ** Histories *)

Definition virgin (s : state) : Prop := p_quadrature_nodes s = [] /\ p_stiffness_matrices s = [] /\ p_initial_rotation s = [] /\ p_current_rotation s = [].
Definition rest_frames (m : mesh) : list (list (list R)) := map (fun row => frame (type m) (gather (x0 m) row)) (elements m).

Lemma resize_length (A : Type) (l : list A) n v : length (resize l n v) = n.
Proof. unfold resize. rewrite app_length, firstn_length, repeat_length. lia. Qed.
Lemma resize_Forall (A : Type) (P : A -> Prop) l n v : Forall P l -> P v -> Forall P (resize l n v).
Proof.
  intros F H. unfold resize. apply Forall_app. split.
  - apply Forall_forall. intros a Ha. exact (proj1 (Forall_forall _ _) F a (in_firstn_in _ _ _ _ Ha)).
  - apply Forall_forall. intros a Ha. apply repeat_spec in Ha. subst. exact H.
Qed.
Lemma resize_same (A : Type) (l : list A) n v : length l = n -> resize l n v = l.
Proof. intros H. unfold resize. rewrite firstn_all2 by lia. rewrite H, Nat.sub_diag. apply app_nil_r. Qed.
Lemma Id3_matrix : matrix3 Id3.
Proof. split; [reflexivity|repeat constructor]. Qed.

Lemma valid_is_true m : valid_mesh m -> forallb (fun node_indices => forallb (fun node => Nat.ltb node (length (x0 m))) node_indices) (elements m) = true.
Proof.
  intros VM. apply forallb_forall. intros row Hr. destruct (in_elements m row VM Hr) as [_ F]. apply forallb_forall. intros i Hi. apply Nat.ltb_lt.
  exact (proj1 (Forall_forall _ _) F i Hi).
Qed.

(** The state after reinit. *)
Definition new_quadrature (m : mesh) (s : state) : list (list gauss_node) :=
  let old := match type m with TetrahedronElastic => [] | HexahedronElastic _ => p_quadrature_nodes s end in
  map2 (fun g row => g ++ gauss_nodes_of (type m) (gather (x0 m) row)) (resize old (length (elements m)) []) (elements m).
Lemma reinit_spec m s : valid_mesh m ->
  let s' := reinit m s in
  corotated s' = corotated s /\ youngModulus s' = youngModulus s /\ poissonRatio s' = poissonRatio s /\
  p_quadrature_nodes s' = new_quadrature m s /\
  p_stiffness_matrices s' = map (element_stiffness (hooke (youngModulus s) (poissonRatio s)) (nn m)) (new_quadrature m s) /\
  p_initial_rotation s' = (if corotated s then rest_frames m else resize (p_initial_rotation s) (length (elements m)) Id3) /\
  p_current_rotation s' = resize (p_current_rotation s) (length (elements m)) Id3 /\ p_K s' = p_K s.
Proof. intros VM. unfold reinit. rewrite (valid_is_true m VM). repeat split. Qed.

Lemma new_quadrature_spec m s : valid_mesh m -> Forall (Forall (balanced (nn m))) (p_quadrature_nodes s) ->
  length (new_quadrature m s) = length (elements m) /\ Forall (Forall (balanced (nn m))) (new_quadrature m s).
Proof.
  intros VM F. unfold new_quadrature. set (old := match type m with TetrahedronElastic => [] | HexahedronElastic _ => p_quadrature_nodes s end).
  assert (Fo : Forall (Forall (balanced (nn m))) (resize old (length (elements m)) [])) by (apply resize_Forall; [unfold old; destruct (type m); [constructor|exact F]|constructor]).
  rewrite map2_combine. split; [rewrite map_length, combine_length, resize_length; lia|].
  apply Forall_forall. intros g Hg. apply in_map_iff in Hg. destruct Hg as ([a row] & <- & H). cbn [fst snd]. apply Forall_app. split.
  - exact (proj1 (Forall_forall _ _) Fo a (in_combine_l _ _ _ _ H)).
  - apply gauss_nodes_of_balanced. apply (in_elements m row VM). exact (in_combine_r _ _ _ _ H).
Qed.

Definition reached (m : mesh) (s : state) : Prop := virgin s \/ exists E nu, initialised m s E nu.

Lemma reached_balanced m s : reached m s -> Forall (Forall (balanced (nn m))) (p_quadrature_nodes s) /\ Forall matrix3 (p_initial_rotation s) /\ Forall matrix3 (p_current_rotation s).
Proof.
  intros [(-> & _ & -> & ->)|(E & nu & _ & _ & F & [_ F0] & [_ F1])]; repeat split; try constructor; try assumption.
Qed.

Lemma reinit_initialised m s : valid_mesh m -> reached m s -> initialised m (reinit m s) (youngModulus s) (poissonRatio s).
Proof.
  intros VM H. destruct (reached_balanced m s H) as (Fq & F0 & F1).
  destruct (reinit_spec m s VM) as (_ & _ & _ & Eq & Ek & E0 & E1 & _). destruct (new_quadrature_spec m s VM Fq) as [Lq Fq'].
  unfold initialised. cbv zeta. rewrite Eq, Ek, E0, E1. split; [exact Lq|]. split; [reflexivity|]. split; [exact Fq'|]. split.
  - destruct (corotated s).
    + split; [apply map_length|]. apply Forall_forall. intros M HM. apply in_map_iff in HM. destruct HM as (row & <- & _). apply frame_matrix.
    + split; [apply resize_length|apply resize_Forall; [exact F0|exact Id3_matrix]].
  - split; [apply resize_length|apply resize_Forall; [exact F1|exact Id3_matrix]].
Qed.

Lemma step_reached m s a : valid_mesh m -> reached m s -> reached m (step m s a).
Proof.
  intros VM H. destruct a as [c E nu| |x f|k dx df|k off|].
  - destruct H as [V|(E' & nu' & I)]; [left; exact V|right; exists E', nu'; exact I].
  - right. exists (youngModulus s), (poissonRatio s). exact (reinit_initialised m s VM H).
  - cbn [step]. destruct H as [(Vq & Vk & V0 & V1)|(E' & nu' & I)].
    + left. unfold addForce. rewrite Vk. destruct (elements m) eqn:El; [destruct VM as [N _]; contradiction|]. cbn [length Nat.eqb negb fst].
      repeat split; assumption.
    + right. exists E', nu'. pose proof I as (Lq & Ek & Fq & I0 & I1). unfold addForce. rewrite Ek, map_length, Lq, Nat.eqb_refl. cbn [negb fst].
      repeat split; try assumption; try apply I0; cbn [p_current_rotation]; apply (rotations_after_spec m s E' nu' x I).
  - exact H.
  - exact H.
  - cbn [step]. unfold K. destruct (K_is_up_to_date s); [exact H|]. exact H.
Qed.
Lemma after_reached m calls s : valid_mesh m -> reached m s -> reached m (after m s calls).
Proof.
  intros VM. unfold after. revert s. induction calls as [|a calls IH]; intros s H; cbn [fold_left]; [exact H|]. apply IH, step_reached; assumption.
Qed.

(** With the option kept, the initial rotations are the frames at rest as soon as there are some. *)
Definition rest_rotations (m : mesh) (s : state) : Prop := corotated s = true /\ (p_stiffness_matrices s = [] \/ p_initial_rotation s = rest_frames m).
Lemma step_rest_rotations m s a : valid_mesh m -> keeps_corotated true a -> rest_rotations m s -> rest_rotations m (step m s a).
Proof.
  intros VM Ka [C H]. destruct a as [c E nu| |x f|k dx df|k off|]; cbn [step keeps_corotated] in *.
  - subst c. split; [reflexivity|exact H].
  - destruct (reinit_spec m s VM) as (Ec & _ & _ & _ & _ & E0 & _). split; [congruence|]. right. rewrite E0, C. reflexivity.
  - unfold addForce. destruct (negb _); cbn [fst]; split; assumption.
  - split; assumption.
  - split; assumption.
  - unfold K. destruct (K_is_up_to_date s); split; assumption.
Qed.
Lemma after_rest_rotations m calls s : valid_mesh m -> Forall (keeps_corotated true) calls -> rest_rotations m s -> rest_rotations m (after m s calls).
Proof.
  intros VM. unfold after. revert s. induction calls as [|a calls IH]; intros s F H; cbn [fold_left]; [exact H|]. inversion_clear F. apply IH, step_rest_rotations; assumption.
Qed.
Lemma fresh_reached m c E nu : reached m (fresh c E nu).
Proof. left. repeat split. Qed.

(** Forces on a state which is not initialised. *)
Lemma addForce_virgin m s x f : valid_mesh m -> virgin s -> snd (addForce m s x f) = Some f.
Proof.
  intros (N & _) (_ & Vk & _). unfold addForce. rewrite Vk. destruct (elements m); [contradiction|]. reflexivity.
Qed.

Lemma fields_equal N f g : field N 3 f -> field N 3 g -> (forall p c, (c < 3)%nat -> entries f p c = entries g p c) -> f = g.
Proof.
  intros [Lf Ff] [Lg Fg] H. apply (nth_ext _ _ [] []); [congruence|]. intros p Hp.
  pose proof (field_row N f p (conj Lf Ff) ltac:(lia)) as L1. pose proof (field_row N g p (conj Lg Fg) ltac:(lia)) as L2.
  apply (nth_ext _ _ 0 0); [congruence|]. intros c Hc. apply (H p c). lia.
Qed.

Lemma rigid_field N Q t x : matrix3 Q -> length t = 3%nat -> field N 3 x -> field N 3 (rigid Q t x).
Proof.
  intros [LQ _] Lt [L F]. unfold rigid. split; [rewrite map_length; exact L|]. apply Forall_forall. intros v Hv. apply in_map_iff in Hv. destruct Hv as (p & <- & _).
  unfold vadd. rewrite map2_combine, map_length, combine_length, matvec_length. lia.
Qed.

Lemma rigid_no_force m s Q t f : valid_mesh m -> reached m s -> rest_rotations m s -> rotation Q -> length t = 3%nat -> field (length (x0 m)) 3 f ->
  snd (addForce m s (rigid Q t (x0 m)) f) = Some f.
Proof.
  intros VM RE [C RR] HQ Lt Ff. set (N := length (x0 m)) in *. destruct RE as [V|(E & nu & IN)]; [apply addForce_virgin; assumption|].
  assert (FX : field N 3 (x0 m)) by apply VM.
  assert (Fx : field N 3 (rigid Q t (x0 m))) by (apply rigid_field; [apply HQ|exact Lt|exact FX]).
  destruct (addForce_spec m s E nu (rigid Q t (x0 m)) f N VM eq_refl IN Fx Ff) as (f' & -> & Ff' & V). f_equal.
  apply (fields_equal N); [assumption|assumption|]. intros p c Hc. rewrite (V p c Hc). clear V.
  rewrite (Rsum_zero _ _ (seq 0 (length (elements m)))); [ring|]. intros e He. apply in_seq in He. apply Rsum_zero. intros a Ha. apply in_seq in Ha.
  destruct (Nat.eqb _ p); [|reflexivity]. unfold corot_force.
  destruct (initialised_element m s E nu e IN ltac:(lia)) as (_ & Hb & M0 & _). destruct (valid_row m e VM ltac:(lia)) as [Lr Fr].
  assert (R0E : R0_of s e = frame (type m) (gather (x0 m) (row_of_element m e))).
  { destruct RR as [Z|RR]; [pose proof IN as (Lq & Ek & _); rewrite Ek in Z; destruct (p_quadrature_nodes s); [simpl in Lq; lia|discriminate]|].
    unfold R0_of. rewrite RR. unfold rest_frames, row_of_element. apply (nth_map' _ _ (fun row => frame (type m) (gather (x0 m) row))). lia. }
  assert (R1E : nth e (rotations_after m s (rigid Q t (x0 m))) [] = matmul 3 Q (R0_of s e)).
  { unfold rotations_after. rewrite C, R0E.
    rewrite (nth_map' _ _ (fun row => frame (type m) (gather (rigid Q t (x0 m)) row)) _ _ []) by lia. fold (row_of_element m e).
    rewrite (gather_rigid N) by assumption. apply frame_rigid; [exact HQ|exact Lt|apply (gather_lengths N); assumption|unfold gather; rewrite map_length; exact Lr]. }
  rewrite R1E.
  assert (Z : forall k, (k < 3)%nat -> local_force E nu (quad_of s e) (nn m) (udisp (R0_of s e) (matmul 3 Q (R0_of s e)) (x0 m) (rigid Q t (x0 m)) (row_of_element m e)) a k = 0).
  { intros k Hk. rewrite (local_force_linear E nu (quad_of s e) (nn m) _ (fun _ k => sum3 (fun l => entries (R0_of s e) l k * sum3 (fun m => entries Q m l * nth m t 0)))).
    - apply local_force_constant; assumption.
    - intros j k' Hj Hk'. apply (rigid_displacement N); try assumption. rewrite Lr. exact Hj. }
  unfold sum3. rewrite !Z by lia. ring.
Qed.

(** Whatever the rotations, the forces sum to zero. *)
Lemma forces_balanced m s x f f' k N : valid_mesh m -> length (x0 m) = N -> reached m s -> field N 3 x -> field N 3 f -> (k < 3)%nat ->
  snd (addForce m s x f) = Some f' -> field N 3 f' /\ weighted N f' (fun _ c => if Nat.eqb c k then 1 else 0) = weighted N f (fun _ c => if Nat.eqb c k then 1 else 0).
Proof.
  intros VM LN RE Fx Ff Hk H. destruct RE as [V|(E & nu & IN)].
  - rewrite (addForce_virgin m s x f VM V) in H. injection H as <-. split; [exact Ff|reflexivity].
  - destruct (addForce_spec m s E nu x f N VM LN IN Fx Ff) as (f'' & E1 & Ff' & V). rewrite H in E1. injection E1 as <-. split; [exact Ff'|].
    rewrite (weighted_contributions m _ f f' N _ VM LN V). rewrite (Rsum_zero _ _ (seq 0 (length (elements m)))); [ring|].
    intros e He. apply in_seq in He. destruct (initialised_element m s E nu e IN ltac:(lia)) as (_ & Hb & _).
    rewrite (Rsum_ext _ _ (fun a => corot_force m s E nu (fun e => nth e (rotations_after m s x) []) x e a k)).
    + unfold corot_force, sum3. rewrite !Rsum_plus, !Rsum_scal_l, !local_force_total by (assumption || lia). ring.
    + intros a _. unfold sum3. destruct k as [|[|[|]]]; try lia; cbn [Nat.eqb]; ring.
Qed.
