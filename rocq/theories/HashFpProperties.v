(** C84: the spatial hash with doubles and 64-bit integers (HashGrid.h).  Model: HashFpModel.v.  [val x] is the real number a finite double stands for. *)

From Coq Require Import ZArith Reals Lra Lia Psatz List Bool.
From Coq Require Import SpecFloat.
From Flocq Require Import Core.Core IEEE754.BinarySingleNaN.
From Verif Require Import GridGeoModel GridGeoSpec GridGeoProofs GridEnclosingProofs HashGridModel HashGridProofs FpModel FpProofs GridFpModel GridFpProofs GridFpAroundProofs HashFpModel HashFpProofs.
Import ListNotations.
Open Scope R_scope.

(** A positive cell size. *)
Definition cell_size (h : double) : Prop := fin h /\ 0 < val h <= bpow radix2 900.
(** A point of dimension [D] with finite coordinates, at most 2^28 cells away from the origin. *)
Definition reachable (D : nat) (h : double) (p : list double) : Prop :=
  length p = D /\ Forall (fun x => fin x /\ Rabs (val x) <= IZR (2 ^ 28) * val h) p.
(** A history of additions of elements (non-empty lists of nodes). *)
Definition additions (D : nat) (h : double) (history : list (list (list double) * Z)) : Prop :=
  Forall (fun op => fst op <> [] /\ Forall (reachable D h) (fst op)) history.

(** Everything is defined, and a query returns, without duplicates, every element whose bounding box contains the point: no rounding makes
    it miss one, even on the very boundary of the box. *)
Theorem C84_complete : forall D h history p, (1 <= D <= 3)%nat -> cell_size h -> additions D h history -> reachable D h p ->
  exists t ids, mrun h history = Some t /\ mget h t p = Some ids /\ NoDup ids /\
    forall nodes id, In (nodes, id) history -> in_bounding_box (map (map val) nodes) (map val p) -> In id ids.
Proof.
  intros D h history p HD [Fh Hh] G [Lp R0]. destruct (get_defined D h history p HD Fh Hh G Lp R0) as (t & ids & Et & Eg & N & I). exists t, ids. repeat (split; [assumption|]).
  intros nodes id Hin Hb. apply I. exists nodes, (map (fun x => Zfloor (quotient (val h) (val x))) p).
  assert (He : good_element D h nodes) by (unfold additions in G; rewrite Forall_forall in G; apply (G _ Hin)). pose proof (good_valid D h nodes He) as V.
  split; [exact Hin|]. split.
  - unfold examined. apply in_list_product. unfold quotients. rewrite map_map. apply Forall2_map_l. clear - R0 Fh Hh. induction R0 as [|x p Hx R0 IH]; cbn [map]; constructor; [|exact IH].
    destruct (reach_quotient h x Fh (proj1 Hh) Hx) as (_ & <- & _). apply floor_in_indices.
  - apply in_zbox; [rewrite !map_length, (colwise_length D) by exact V; auto|rewrite !map_length, (colwise_length D) by exact V; auto|].
    intros k l u0 i El Eu Ei. apply nth_map in El. destruct El as (y & Ey & ->). apply nth_map in Eu. destruct Eu as (z & Ez & ->). apply nth_map in Ei. destruct Ei as (x & Ex & ->).
    destruct (colwise_min_spec D _ k y V Ey) as [M1 _]. destruct (colwise_max_spec D _ k z V Ez) as [M2 _].
    destruct (Hb k (val x)) as [(n1 & y1 & N1 & E1 & L1) (n2 & y2 & N2 & E2 & L2)]; [rewrite nth_error_map, Ex; reflexivity|].
    pose proof (M1 _ _ N1 E1). pose proof (M2 _ _ N2 E2). split; apply Zfloor_le, quotient_mono; try apply Hh; lra.
Qed.
Print Assumptions C84_complete.

Lemma quotient_err : forall h x, 0 < h -> Rabs x <= IZR (2 ^ 28) * h -> Rabs (quotient h x - x / h) <= bpow radix2 (-24).
Proof.
  intros h x Hh Hx. assert (Q : Rabs (x / h) <= IZR (2 ^ 28)).
  { unfold Rdiv. rewrite Rabs_mult, (Rabs_pos_eq (/ h)) by (left; apply Rinv_0_lt_compat, Hh). apply Rmult_le_reg_r with h; [exact Hh|]. rewrite Rmult_assoc, Rinv_l, Rmult_1_r by lra. exact Hx. }
  unfold quotient. destruct (rnd_err (x / h)) as (e & t & He & Ht & E & _). rewrite E. replace (x / h * (1 + e) + t - x / h) with (x / h * e + t) by ring.
  apply Rle_trans with (1 := Rabs_triang _ _). rewrite Rabs_mult. apply Rle_trans with (IZR (2 ^ 28) * u + tiny); [apply Rplus_le_compat; [apply Rmult_le_compat; try apply Rabs_pos; assumption|exact Ht]|].
  change (IZR (2 ^ 28)) with (bpow radix2 28). unfold u. rewrite <- bpow_plus. assert (tiny <= bpow radix2 (-25)) by (apply bpow_le; lia). change (28 + -53)%Z with (-25)%Z. change (-24)%Z with (-25 + 1)%Z. rewrite bpow_plus. change (bpow radix2 1) with 2. lra.
Qed.

Lemma nth_zrange : forall lo hi k a b, nth_error lo k = Some a -> nth_error hi k = Some b -> nth_error (map2 zrange lo hi) k = Some (zrange a b).
Proof. induction lo as [|l lo IH]; intros [|m hi] [|k] a b Ea Eb; cbn [nth_error map2] in *; try discriminate; [congruence|apply IH; assumption]. Qed.

(** Conversely, everything returned was added with a bounding box closer to the point than about one cell on each axis. *)
Theorem C84_local : forall D h history p t ids id, (1 <= D <= 3)%nat -> cell_size h -> additions D h history -> reachable D h p ->
  mrun h history = Some t -> mget h t p = Some ids -> In id ids ->
  exists nodes, In (nodes, id) history /\
    forall k x, nth_error p k = Some x ->
      (exists n y, In n nodes /\ nth_error n k = Some y /\ val y < val x + (1 + bpow radix2 (-20)) * val h) /\
      (exists n y, In n nodes /\ nth_error n k = Some y /\ val x - (1 + bpow radix2 (-20)) * val h < val y).
Proof.
  intros D h history p t ids id HD [Fh Hh] G [Lp R0] Et Eg Hi. destruct (get_defined D h history p HD Fh Hh G Lp R0) as (t' & ids' & Et' & Eg' & _ & I). rewrite Et in Et'. injection Et' as <-. rewrite Eg in Eg'. injection Eg' as <-.
  apply I in Hi. destruct Hi as (nodes & key & Hin & Hk & Hc). exists nodes. split; [exact Hin|]. intros k x Ex.
  assert (He : good_element D h nodes) by (unfold additions in G; rewrite Forall_forall in G; apply (G _ Hin)). pose proof (good_valid D h nodes He) as V.
  assert (Rx : fin x /\ Rabs (val x) <= IZR (2 ^ 28) * val h) by (rewrite Forall_forall in R0; apply R0; eapply nth_error_In; exact Ex).
  apply in_list_product in Hk. unfold quotients in Hk. rewrite map_map in Hk. apply Forall2_map_l in Hk. pose proof (Forall2_length _ _ _ _ _ Hk) as Lk.
  destruct (nth_len _ _ p key k x Lk Ex) as [i Ei]. pose proof (Forall2_nth' _ _ _ _ _ _ _ _ Hk Ex Ei) as Ni. cbv beta in Ni.
  destruct (reach_quotient h x Fh (proj1 Hh) Rx) as (Fq & Eq & Bq). pose proof le28 as B28. pose proof (indices_near _ _ Fq (Rle_trans _ _ _ Bq B28) Ni) as Near. rewrite Eq in Near.
  apply in_list_product in Hc.
  set (lo := map (fun x => Zfloor (quotient (val h) x)) (colwise Rmin (map (map val) nodes))) in *. set (hi := map (fun x => Zfloor (quotient (val h) x)) (colwise Rmax (map (map val) nodes))) in *.
  assert (Ll : length lo = length p) by (unfold lo; rewrite map_length, (colwise_length D) by exact V; auto). assert (Lh : length hi = length p) by (unfold hi; rewrite map_length, (colwise_length D) by exact V; auto).
  destruct (nth_len _ _ p lo k x (eq_sym Ll) Ex) as [a Ea]. destruct (nth_len _ _ p hi k x (eq_sym Lh) Ex) as [b Eb].
  assert (Ez : nth_error (map2 zrange lo hi) k = Some (zrange a b)).
  { apply nth_zrange; assumption. }
  pose proof (Forall2_nth' _ _ _ _ _ _ _ _ Hc Ez Ei) as Zi. cbv beta in Zi. apply in_zrange in Zi.
  apply nth_map in Ea. destruct Ea as (y & Ey & ->). apply nth_map in Eb. destruct Eb as (z & Ezz & ->).
  destruct (colwise_min_spec D _ k y V Ey) as [_ (n1 & N1 & E1)]. destruct (colwise_max_spec D _ k z V Ezz) as [_ (n2 & N2 & E2)].
  apply in_map_iff in N1. destruct N1 as (m1 & <- & N1). apply nth_map in E1. destruct E1 as (w1 & W1 & ->). apply in_map_iff in N2. destruct N2 as (m2 & <- & N2). apply nth_map in E2. destruct E2 as (w2 & W2 & ->).
  assert (Rn : forall m w, In m nodes -> nth_error m k = Some w -> Rabs (val w) <= IZR (2 ^ 28) * val h).
  { intros m w Hm Hw. destruct He as [_ He]. rewrite Forall_forall in He. destruct (He m Hm) as [_ Hr]. unfold in_reach in Hr. rewrite Forall_forall in Hr. apply Hr. eapply nth_error_In. exact Hw. }
  pose proof (quotient_err (val h) (val x) (proj1 Hh) (proj2 Rx)) as Qx. pose proof (quotient_err (val h) (val w1) (proj1 Hh) (Rn _ _ N1 W1)) as Q1. pose proof (quotient_err (val h) (val w2) (proj1 Hh) (Rn _ _ N2 W2)) as Q2.
  apply abs_le in Qx, Q1, Q2. destruct Zi as [Z1 Z2]. apply IZR_le in Z1, Z2. pose proof (Zfloor_ub (quotient (val h) (val w1))) as U1. pose proof (Zfloor_lb (quotient (val h) (val w2))) as U2.
  assert (C52 : bpow radix2 (-52) <= bpow radix2 (-24)) by (apply bpow_le; lia). assert (C20 : bpow radix2 (-20) = 16 * bpow radix2 (-24)) by (change (-20)%Z with (4 + -24)%Z; rewrite bpow_plus; reflexivity). pose proof (bpow_gt_0 radix2 (-24)) as P24.
  assert (D1 : val w1 / val h < val x / val h + (1 + bpow radix2 (-20))) by lra. assert (D2 : val x / val h - (1 + bpow radix2 (-20)) < val w2 / val h) by lra.
  assert (Dv : forall w, w / val h * val h = w) by (intros w; field; lra).
  split; [exists m1, w1|exists m2, w2]; (split; [assumption|]); (split; [assumption|]).
  - apply (Rmult_lt_compat_r (val h)) in D1; [|lra]. rewrite Rmult_plus_distr_r, !Dv in D1. exact D1.
  - apply (Rmult_lt_compat_r (val h)) in D2; [|lra]. rewrite Rmult_minus_distr_r, !Dv in D2. exact D2.
Qed.
Print Assumptions C84_local.

(** Far from the origin it is not defined: 2^37 cells away along the first axis the hash function overflows, and so does the comparison of two
    keys 2^32 cells apart (were the integers to wrap around, the keys at 0 and 2^32 would be found equal). *)
Theorem C84_far_refuted :
  (forall c key, (2 ^ 37 <= c)%Z -> machine_hash (c :: key) = None) /\
  (forall a b k l, length k = length l -> (2 ^ 32 <= a - b < 2 ^ 63)%Z -> machine_equal (a :: k) (b :: l) = None) /\
  (forall x t id, fin x -> bpow radix2 37 <= val x <= bpow radix2 60 -> madd (of_int 1) t [[x]] id = None).
Proof.
  assert (H1 : forall c key, (2 ^ 37 <= c)%Z -> machine_hash (c :: key) = None).
  { intros c key H. unfold machine_hash. cbn [map2 all_some]. unfold checked at 1. destruct (Z.ltb_spec (73856093 * c) (2 ^ 63)); [lia|]. rewrite andb_false_r. reflexivity. }
  split; [exact H1|]. split.
  - intros a b k l L H. unfold machine_equal. cbn [map2 all_some]. rewrite checked_some by lia. destruct (all_some (map2 (fun x y => checked (x - y)) k l)) as [d|]; [|reflexivity].
    cbn [map all_some]. assert (S : (2 ^ 64 <= (a - b) * (a - b))%Z) by (change (2 ^ 64)%Z with (2 ^ 32 * 2 ^ 32)%Z; apply Z.mul_le_mono_nonneg; lia). unfold checked at 1. destruct (Z.ltb_spec ((a - b) * (a - b)) (2 ^ 63)); [lia|]. rewrite andb_false_r. reflexivity.
  - intros x t id Fx [B1 B2]. destruct (of_int_exact 1) as [F1 E1]; [lia|]. assert (P0 : 0 < val x) by (pose proof (bpow_gt_0 radix2 37); lra).
    assert (Bb : Rabs (val x) <= big) by (rewrite Rabs_pos_eq by lra; apply Rle_trans with (1 := B2); apply bpow_le; lia).
    destruct (times_one x Fx Bb) as [Fm Em]. destruct (div_rnd (fmul x (of_int 1)) (of_int 1) Fm) as [Fd Ed]; [rewrite E1; lra|rewrite E1, Em; unfold Rdiv; rewrite Rinv_1, Rmult_1_r; exact Bb|].
    rewrite Em, E1 in Ed. unfold Rdiv in Ed. rewrite Rinv_1, Rmult_1_r, (rnd_format _ (format_val x)) in Ed.
    assert (C : fcoordinate (of_int 1) x = Some (Zfloor (val x))).
    { unfold fcoordinate. destruct (ffloor_val _ Fd) as [Ff Ef]. rewrite Ed in Ef. rewrite <- (Ztrunc_IZR (Zfloor (val x))), <- Ef. apply to_int_spec; [exact Ff|]. rewrite Ef, Ztrunc_IZR.
      assert (0 <= Zfloor (val x))%Z by (apply Zfloor_lub; lra). assert (Zfloor (val x) <= 2 ^ 60)%Z; [|lia]. apply le_IZR. apply Rle_trans with (val x); [apply Zfloor_lb|]. exact B2. }
    unfold madd. cbn [fcolwise fold_left map all_some]. rewrite C. cbn [map2 list_product]. assert (Z0 : zrange (Zfloor (val x)) (Zfloor (val x)) <> []).
    { intros K. assert (I : In (Zfloor (val x)) (zrange (Zfloor (val x)) (Zfloor (val x)))) by (apply in_zrange; lia). rewrite K in I. destruct I. }
    destruct (zrange (Zfloor (val x)) (Zfloor (val x))) as [|i l] eqn:E; [congruence|]. cbn [flat_map map app fold_left].
    assert (I : In i (zrange (Zfloor (val x)) (Zfloor (val x)))) by (rewrite E; left; reflexivity). apply in_zrange in I. assert (Ei : i = Zfloor (val x)) by lia. subst i.
    assert (M : machine_emplace t [Zfloor (val x)] id = None) by (unfold machine_emplace; rewrite H1 by (apply Zfloor_lub; exact B1); reflexivity).
    rewrite M. apply (fold_none _ _ (fun t key => machine_emplace t key id)).
Qed.
Print Assumptions C84_far_refuted.

(** With a cell size of zero neither an element nor a point has a cell. *)
Theorem C84_zero_cell_size_refuted : forall x, fin x -> fcoordinate (of_int 0) x = None /\ forall t, mget (of_int 0) t [x] = None.
Proof.
  intros x Fx. assert (D : forall y : double, is_finite (fdiv y (of_int 0)) = false \/ is_finite y = false).
  { intros y. replace (of_int 0) with (B754_zero false : double) by (apply B2SF_inj; vm_compute; reflexivity). destruct y as [s|s| |s m e B]; cbn; auto. }
  assert (T : forall q : double, is_finite q = false -> to_int (ffloor q) = None) by (intros [s|s| |s m e B] H; cbn in H |- *; congruence).
  split.
  - unfold fcoordinate. apply T. destruct (D (fmul x (of_int 1))) as [H|H]; [exact H|]. exfalso. revert H Fx. unfold fin. destruct (of_int_exact 1) as [F1 E1]; [lia|].
    intros H Fx. assert (M : is_finite (fmul x (of_int 1)) = true); [|congruence].
    pose proof (Bmult_correct 53 1024 _ _ mode_NE x (of_int 1)) as C. change (B2R (of_int 1)) with (val (of_int 1)) in C. rewrite E1, Rmult_1_r in C. cbn [round_mode] in C.
    rewrite (round_generic radix2 _ _ (B2R x)) in C by (apply format_val). rewrite Rlt_bool_true in C by (apply abs_B2R_lt_emax). destruct C as (_ & C & _). unfold fmul. rewrite C. rewrite F1, Fx. reflexivity.
  - intros t. unfold mget, fcells. cbn [map existsb all_some]. assert (Q : is_finite (fdiv x (of_int 0)) = false) by (destruct (D x) as [H|H]; [exact H|unfold fin in Fx; congruence]).
    assert (N : findices (fdiv x (of_int 0)) = None).
    { unfold findices. destruct (near_integer (fdiv x (of_int 0))); [|rewrite T by exact Q; reflexivity]. assert (R0 : is_finite (fsub (fround (fdiv x (of_int 0))) (dbl 1 (-1))) = false).
      { destruct (fdiv x (of_int 0)) as [s|s| |s m e B]; try discriminate Q; [destruct s|]; vm_compute; reflexivity. }
      rewrite T by exact R0. reflexivity. }
    destruct (negb (near_integer (fdiv x (of_int 0)) || false)); [rewrite T by exact Q; reflexivity|]. rewrite N. reflexivity.
Qed.
Print Assumptions C84_zero_cell_size_refuted.

(** Two triangles of the plane with one tenth as cell size, and a corner of the first one as query. *)
Example C84_witness : let h := fdiv (of_int 1) (of_int 10) in let history := [([[of_int 0; of_int 0]; [of_int 1; of_int 0]; [of_int 0; of_int 1]], 7%Z); ([[of_int 3; of_int 3]; [of_int 4; of_int 3]; [of_int 3; of_int (-4)]], 8%Z)] in
  cell_size h /\ additions 2 h history /\ reachable 2 h [of_int 1; of_int 0] /\
  in_bounding_box (map (map val) [[of_int 0; of_int 0]; [of_int 1; of_int 0]; [of_int 0; of_int 1]]) (map val [of_int 1; of_int 0]).
Proof.
  intros h history. assert (Vz : forall z, (Z.abs z <= 2 ^ 53)%Z -> val (of_int z) = IZR z) by (intros z Hz; apply of_int_exact, Hz). assert (Fz : forall z, (Z.abs z <= 2 ^ 53)%Z -> fin (of_int z)) by (intros z Hz; apply of_int_exact, Hz).
  assert (Hh : fin h /\ / 16 <= val h <= 1).
  { split; [vm_compute; reflexivity|]. rewrite val_SF. replace (B2SF h) with (S754_finite false 7205759403792794 (-56)) by (vm_compute; reflexivity). unfold SF2R, F2R, cond_Zopp. cbn [Fnum Fexp]. change (bpow radix2 (-56)) with (/ 72057594037927936). lra. }
  destruct Hh as [Fh Hh].
  assert (R0 : forall z, (Z.abs z <= 8)%Z -> fin (of_int z) /\ Rabs (val (of_int z)) <= IZR (2 ^ 28) * val h).
  { intros z Hz. split; [apply Fz; lia|]. rewrite Vz by lia. rewrite <- abs_IZR. apply Rle_trans with 8; [apply IZR_le; lia|]. change (2 ^ 28)%Z with 268435456%Z. lra. }
  split; [|split; [|split]].
  - split; [exact Fh|]. split; [lra|]. apply Rle_trans with (bpow radix2 0); [change (bpow radix2 0) with 1; lra|apply bpow_le; lia].
  - assert (P2 : forall a b, (Z.abs a <= 8)%Z -> (Z.abs b <= 8)%Z -> reachable 2 h [of_int a; of_int b]) by (intros a b Ha Hb; split; [reflexivity|]; apply Forall_cons; [apply R0, Ha|]; apply Forall_cons; [apply R0, Hb|apply Forall_nil]).
    unfold additions, history. apply Forall_cons; [|apply Forall_cons; [|apply Forall_nil]]; (split; [discriminate|]); cbn [fst]; repeat (apply Forall_cons; [apply P2; lia|]); apply Forall_nil.
  - split; [reflexivity|]. repeat (apply Forall_cons || apply Forall_nil); apply R0; lia.
  - assert (E : map (map val) [[of_int 0; of_int 0]; [of_int 1; of_int 0]; [of_int 0; of_int 1]] = [[0; 0]; [1; 0]; [0; 1]] /\ map val [of_int 1; of_int 0] = [1; 0]) by (cbn [map]; rewrite !Vz by lia; split; reflexivity).
    destruct E as [-> ->]. intros [|[|k]] x E; cbn [nth_error] in E; [| |destruct k; discriminate E]; injection E as <-; split.
    + exists [0; 0], 0. split; [left; reflexivity|]. split; [reflexivity|lra].
    + exists [1; 0], 1. split; [right; left; reflexivity|]. split; [reflexivity|lra].
    + exists [0; 0], 0. split; [left; reflexivity|]. split; [reflexivity|lra].
    + exists [1; 0], 0. split; [right; left; reflexivity|]. split; [reflexivity|lra].
Qed.
