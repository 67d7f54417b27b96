(** Proofs for C106. *)

From Coq Require Import ZArith Reals Lra Lia.
From Coquelicot Require Import Coquelicot.
From Coq Require Import List Arith Bool.
From Verif Require Import GridGeoModel HashGridModel ShapeModel ShapeSpec ShapeProofs ShapeFieldProofs LinAlg LinAlgProofs RectModel RectSpec RectProofs NewtonLocalProofs BarycentricModel BarycentricSpec BarycentricProofs BarycentricProperties
  SparseModel SparseProofs Sums MappingModel MappingSpec MappingProofs MappingProperties.
From Verif Require SurfaceProofs SurfaceProofs2.
From Verif Require Import FollowSpec.
Import ListNotations.
Open Scope R_scope.

Lemma affine_length D M b p : square_matrix D M -> length b = D -> length (affine_map M b p) = D.
Proof. intros [LM _] Hb. unfold affine_map. apply SurfaceProofs.vadd_length; [unfold matvec; rewrite map_length; exact LM|exact Hb]. Qed.
Lemma affine_nth D M b p c : square_matrix D M -> length b = D -> length p = D -> (c < D)%nat ->
  nth c (affine_map M b p) 0 = Rsum (map (fun k => nth k (nth c M []) 0 * nth k p 0) (seq 0 D)) + nth c b 0.
Proof.
  intros [LM FM] Hb Hp Hc. unfold affine_map. rewrite SurfaceProofs.vadd_nth by (unfold matvec; rewrite map_length; congruence). f_equal. unfold matvec.
  set (h := fun row => vdot row p). rewrite (nth_indep _ 0 (h [])) by (rewrite map_length, LM; exact Hc). rewrite (map_nth h). unfold h. apply SurfaceProofs2.vdot_seq; [|exact Hp]. apply (proj1 (Forall_forall _ _) FM), nth_In. rewrite LM. exact Hc.
Qed.
Lemma affine_field D M b n x : square_matrix D M -> length b = D -> field n D x -> field n D (map (affine_map M b) x).
Proof. intros S Hb [L F]. split; [rewrite map_length; exact L|]. apply Forall_forall. intros v Hv. apply in_map_iff in Hv. destruct Hv as (p & <- & _). apply (affine_length D); assumption. Qed.
Lemma affine_row M b x i : (i < length x)%nat -> nth i (map (affine_map M b) x) [] = affine_map M b (nth i x []).
Proof. intros Hi. rewrite (nth_indep _ [] (affine_map M b [])) by (rewrite map_length; exact Hi). apply map_nth. Qed.

Lemma follows_affine d rest m D M b x out0 : well_formed d -> init d rest = Some m -> usable m = true -> square_matrix D M -> length b = D ->
  field (length (positions d)) D x -> length out0 = length rest ->
  exists y, apply m D x out0 = Some y /\ applyJ m D x out0 = Some y /\ field (length rest) D y /\
    apply m D (map (affine_map M b) x) out0 = Some (map (affine_map M b) y) /\ applyJ m D (map (affine_map M b) x) out0 = Some (map (affine_map M b) y).
Proof.
  intros WF HI U SM Hb Hx Ho. destruct (applyJ_result d rest m D x out0 WF HI U Hx Ho) as (y & EJ & EA & Fy & Ry).
  destruct (applyJ_result d rest m D (map (affine_map M b) x) out0 WF HI U (affine_field D M b _ x SM Hb Hx) Ho) as (z & EJ2 & EA2 & Fz & Rz).
  assert (E : z = map (affine_map M b) y).
  { apply (SurfaceProofs.fields_same (length rest) D z _ Fz (affine_field D M b _ y SM Hb Fy)). intros i Hi c. destruct (Nat.lt_ge_cases c D) as [Hc|Hc].
    2:{ rewrite !nth_overflow; [reflexivity| |]; rewrite (SurfaceProofs.field_row (length rest) D) by (first [exact Fz | exact (affine_field D M b _ y SM Hb Fy) | exact Hi]); exact Hc. }
    rewrite (Rz i c Hi Hc), affine_row by (rewrite (proj1 Fy); exact Hi). rewrite (affine_nth D M b _ c SM Hb) by (first [exact Hc | apply (SurfaceProofs.field_row (length rest) D y i Fy Hi)]).
    set (N := length (positions d)) in *. set (J := fun j => coeff (J_entries m) i j).
    rewrite (Rsum_ext _ (fun k => nth k (nth c M []) 0 * nth k (nth i y []) 0) (fun k => Rsum (map (fun j => nth k (nth c M []) 0 * (J j * nth k (nth j x []) 0)) (seq 0 N)))) by (intros k Hk; apply in_seq in Hk; rewrite (Ry i k Hi) by lia; rewrite <- Rsum_scal_l; reflexivity).
    rewrite Rsum_swap. replace (nth c b 0) with (Rsum (map (fun j => J j * nth c b 0) (seq 0 N))) by (rewrite Rsum_scal_r; unfold J, N; rewrite (row_total d rest m i WF HI U Hi); ring).
    rewrite <- Rsum_plus. apply Rsum_ext. intros j Hj. apply in_seq in Hj. rewrite affine_row by (rewrite (proj1 Hx); lia).
    rewrite (affine_nth D M b _ c SM Hb) by (first [exact Hc | apply (SurfaceProofs.field_row N D x j Hx); lia]). fold (J j). rewrite Rmult_plus_distr_l. f_equal. rewrite <- Rsum_scal_l. apply Rsum_ext. intros k _. ring. }
  subst z. exists y. auto 8.
Qed.

(** ** Moments *)
Definition e_cross (k : nat) : list (list R) := match k with O => [[0; 0; 0]; [0; 0; -1]; [0; 1; 0]] | S O => [[0; 0; 1]; [0; 0; 0]; [-1; 0; 0]] | _ => [[0; -1; 0]; [1; 0; 0]; [0; 0; 0]] end.
Lemma moment_power n x f k : field n 3 x -> field n 3 f -> (k < 3)%nat -> nth k (moment x f) 0 = power f (map (matvec (e_cross k)) x).
Proof.
  intros [Lx Fx] [Lf Ff] Hk. unfold moment, total. set (h := fun c => Rsum _). rewrite (nth_indep _ 0 (h 0%nat)) by (rewrite map_length, seq_length; exact Hk). rewrite (map_nth h), seq_nth by exact Hk. cbn [plus]. unfold h, power. clear h.
  revert f n Lx Lf Ff. induction x as [|p x IH]; intros [|g f] n Lx Lf Ff; cbn in Lx, Lf; try lia; [reflexivity|]. apply Forall_cons_iff in Fx, Ff. destruct Fx as [Hp Fx], Ff as [Hg Ff].
  cbn [map2 map]. unfold Rsum at 1 2. cbn [fold_right]. fold (Rsum (map (fun v => nth k v 0) (map2 vcross x f))). fold (Rsum (map2 (fun a b => Rsum (map2 Rmult a b)) f (map (matvec (e_cross k)) x))).
  f_equal; [|apply (IH Fx f (n - 1)%nat); [lia|lia|exact Ff] ]. destruct p as [|p0 [|p1 [|p2 [|] ] ] ]; try discriminate Hp. destruct g as [|g0 [|g1 [|g2 [|] ] ] ]; try discriminate Hg.
  destruct k as [|[|[|] ] ]; try lia; cbn [e_cross]; unfold vcross, matvec, vdot, Rsum; cbn [map map2 nth fold_right Nat.add]; ring.
Qed.
Lemma e_cross_square k : square_matrix 3 (e_cross k).
Proof. destruct k as [|[|] ]; split; try reflexivity; repeat constructor. Qed.
Lemma affine_zero D M p : square_matrix D M -> length p = D -> affine_map M (repeat 0 D) p = matvec M p.
Proof.
  intros S Hp. unfold affine_map, vadd. assert (L : length (matvec M p) = D) by (unfold matvec; rewrite map_length; apply S). revert L. generalize (matvec M p) as v. clear. intros v <-. induction v as [|a v IH]; [reflexivity|]. simpl. rewrite IH. f_equal. ring.
Qed.
Lemma affine_zero_all D M n x : square_matrix D M -> field n D x -> map (affine_map M (repeat 0 D)) x = map (matvec M) x.
Proof. intros S [_ F]. apply map_ext_in. intros p Hp. apply affine_zero; [exact S|exact (proj1 (Forall_forall _ _) F p Hp)]. Qed.

(** ** Seams *)
Lemma world_unique d k xi xi' : affine_domain d -> (k < length (connectivity d))%nat -> length xi = CanonicalDimension (kind d) -> length xi' = CanonicalDimension (kind d) -> world_position d k xi = world_position d k xi' -> xi = xi'.
Proof.
  intros HD Hk L L' E. pose proof HD as (_ & HP & HC & HA).
  assert (Hin : In (nth k (elements d) []) (elements d)) by (apply nth_In; unfold elements; rewrite map_length; exact Hk).
  destruct (proj1 (Forall_forall _ _) HA _ Hin) as (x0 & Em & AE & IE).
  assert (T : ShapeSpec.table (NumberOfNodes (kind d)) (dim d) (nth k (elements d) [])).
  { unfold elements in Hin |- *. apply in_map_iff in Hin. destruct Hin as (row & <- & Hr). destruct (proj1 (Forall_forall _ _) HC row Hr) as [R1 R2]. unfold nodes_of_element. split; [rewrite map_length; exact R1|].
    apply Forall_forall. intros p Hp. apply in_map_iff in Hp. destruct Hp as (i & <- & Hi). apply (proj1 (Forall_forall _ _) HP), nth_In. exact (proj1 (Forall_forall _ _) R2 i Hi). }
  rewrite <- (newton_step_affine (dim d) (kind d) _ x0 Em xi xi T AE IE L L), <- (newton_step_affine (dim d) (kind d) _ x0 Em xi xi' T AE IE L L'). unfold world_position in E. rewrite E. reflexivity.
Qed.
(** The shape functions of a simplex take any values of sum 1. *)
Lemma simplex_weights e w : In e [Segment_Linear; Triangle_Linear; Tetrahedron_Linear] -> length w = NumberOfNodes e -> Rsum w = 1 -> exists xi, length xi = CanonicalDimension e /\ L e xi = w.
Proof.
  intros [<-|[<-|[<-|[] ] ] ] Hw S; cbn [NumberOfNodes] in Hw.
  - destruct w as [|a [|b [|] ] ]; try discriminate Hw. exists [b - a]. split; [reflexivity|]. unfold Rsum in S. cbn [fold_right] in S. unfold L, Segment_Linear_L, Triangle_Linear_L, Tetrahedron_Linear_L. cbn [nth]. cbv zeta. repeat (f_equal; try lra).
  - destruct w as [|a [|b [|c [|] ] ] ]; try discriminate Hw. exists [b; c]. split; [reflexivity|]. unfold Rsum in S. cbn [fold_right] in S. unfold L, Segment_Linear_L, Triangle_Linear_L, Tetrahedron_Linear_L. cbn [nth]. cbv zeta. repeat (f_equal; try lra).
  - destruct w as [|a [|b [|c [|f [|] ] ] ] ]; try discriminate Hw. exists [b; c; f]. split; [reflexivity|]. unfold Rsum in S. cbn [fold_right] in S. unfold L, Segment_Linear_L, Triangle_Linear_L, Tetrahedron_Linear_L. cbn [nth]. cbv zeta. repeat (f_equal; try lra).
Qed.
Lemma interpolate_weights e xi D (values : list (list R)) row lambda : L e xi = map lambda row -> interpolate D e xi (map (fun i => nth i values []) row) = map (fun c => Rsum (map (fun j => lambda j * nth c (nth j values []) 0) row)) (seq 0 D).
Proof.
  intros E. unfold interpolate. rewrite E. apply map_ext. intros c. f_equal. clear. induction row as [|i row IH]; [reflexivity|]. cbn [map map2]. rewrite IH. f_equal. ring.
Qed.
Lemma common_sum (g : nat -> R) (lambda : nat -> R) row row' : NoDup row -> NoDup row' -> (forall j, ~ (In j row /\ In j row') -> lambda j = 0) ->
  Rsum (map (fun j => lambda j * g j) row) = Rsum (map (fun j => lambda j * g j) row').
Proof.
  intros N1 N2 S.
  assert (G : forall r r', (forall j, ~ (In j r /\ In j r') -> lambda j = 0) -> Rsum (map (fun j => lambda j * g j) r) = Rsum (map (fun j => lambda j * g j) (filter (fun j => if in_dec Nat.eq_dec j r' then true else false) r))).
  { clear. intros r r' S. assert (S' : forall j, ~ In j r' -> lambda j = 0) by (intros j H; apply S; tauto). clear S. induction r as [|a r IH]; [reflexivity|]. cbn [map filter]. destruct (in_dec Nat.eq_dec a r') as [H|H]; cbn [map]; unfold Rsum in *; cbn [fold_right]; rewrite IH; [reflexivity|].
    rewrite (S' a H). ring. }
  rewrite (G row row' S), (G row' row ltac:(intros j H; apply S; tauto)). apply ShapeFpSumProofs.Rsum_permutation, Permutation.Permutation_map, Permutation.NoDup_Permutation.
  - apply NoDup_filter. exact N1.
  - apply NoDup_filter. exact N2.
  - intros j. rewrite !filter_In. destruct (in_dec Nat.eq_dec j row'), (in_dec Nat.eq_dec j row); intuition congruence.
Qed.
Lemma face_weights d k xi lambda : affine_domain d -> In (kind d) [Segment_Linear; Triangle_Linear; Tetrahedron_Linear] -> (k < length (connectivity d))%nat -> length xi = CanonicalDimension (kind d) ->
  let row := nth k (connectivity d) [] in Rsum (map lambda row) = 1 ->
  (forall c, (c < dim d)%nat -> nth c (world_position d k xi) 0 = Rsum (map (fun j => lambda j * nth c (nth j (positions d) []) 0) row)) -> L (kind d) xi = map lambda row.
Proof.
  intros HD HK Hk Lx row S E. pose proof HD as (_ & _ & HC & _). assert (Hr : In row (connectivity d)) by (apply nth_In; exact Hk). destruct (proj1 (Forall_forall _ _) HC row Hr) as [Lr _].
  destruct (simplex_weights (kind d) (map lambda row) HK ltac:(rewrite map_length; exact Lr) S) as (xi' & Lx' & EL). rewrite <- EL. f_equal. apply (world_unique d k xi xi' HD Hk Lx Lx').
  assert (EN : nth k (elements d) [] = map (fun i => nth i (positions d) []) row).
  { unfold elements. rewrite (nth_indep _ [] (nodes_of_element d [])) by (rewrite map_length; exact Hk). rewrite map_nth. reflexivity. }
  apply (nth_ext _ _ 0 0); [unfold world_position, world_coordinates, interpolate; rewrite !map_length; reflexivity|]. intros c Hc. unfold world_position, world_coordinates, interpolate in Hc. rewrite map_length, seq_length in Hc.
  rewrite (E c Hc). unfold world_position, world_coordinates. rewrite EN, (interpolate_weights (kind d) xi' (dim d) (positions d) row lambda EL). rewrite nth_map_seq by exact Hc. reflexivity.
Qed.
