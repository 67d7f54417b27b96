(** Proofs about the spatial hash with doubles and machine integers (HashFpModel.v). *)

From Coq Require Import ZArith Reals Lra Lia Psatz List Bool.
From Coq Require Import SpecFloat.
From Flocq Require Import Core.Core IEEE754.BinarySingleNaN.
From Verif Require Import GridGeoModel GridGeoSpec GridGeoProofs GridEnclosingProofs HashGridModel HashGridProofs FpModel FpProofs GridFpModel GridFpProofs GridFpAroundProofs HashFpModel.
Import ListNotations.
Open Scope R_scope.

(** ** Lists of defined results *)

Lemma all_some_map : forall (A B : Type) (f : A -> option B) (g : A -> B) l, (forall x, In x l -> f x = Some (g x)) -> all_some (map f l) = Some (map g l).
Proof.
  intros A B f g. induction l as [|x l IH]; intros H; [reflexivity|]. cbn [map all_some]. rewrite (H x (or_introl eq_refl)), (IH (fun y Hy => H y (or_intror Hy))). reflexivity.
Qed.
Lemma fold_some : forall (A T : Type) (f : T -> A -> option T) (g : T -> A -> T) (P : T -> Prop) l t, P t -> (forall t x, P t -> In x l -> f t x = Some (g t x) /\ P (g t x)) ->
  fold_left (fun t x => match t with Some t => f t x | None => None end) l (Some t) = Some (fold_left g l t) /\ P (fold_left g l t).
Proof.
  intros A T f g P. induction l as [|x l IH]; intros t H0 H; [split; [reflexivity|exact H0]|]. cbn [fold_left]. destruct (H t x H0 (or_introl eq_refl)) as [E P1]. rewrite E.
  apply IH; [exact P1|]. intros t' y Ht Hy. apply H; [exact Ht|right; exact Hy].
Qed.
Lemma fold_none : forall (A T : Type) (f : T -> A -> option T) l, fold_left (fun t x => match t with Some t => f t x | None => None end) l None = None.
Proof. intros A T f. induction l as [|x l IH]; [reflexivity|exact IH]. Qed.

(** ** Keys *)

Definition small_key (D : nat) (k : list Z) : Prop := length k = D /\ Forall (fun c => (Z.abs c <= 2 ^ 29)%Z) k.
Lemma checked_some : forall z, (- 2 ^ 63 <= z < 2 ^ 63)%Z -> checked z = Some z.
Proof. intros z H. unfold checked. destruct (Z.leb_spec (- 2 ^ 63) z), (Z.ltb_spec z (2 ^ 63)); try lia. reflexivity. Qed.
Lemma hash_defined : forall D k, (1 <= D <= 3)%nat -> small_key D k -> exists h, machine_hash k = Some h.
Proof.
  intros D k HD [L F]. unfold machine_hash.
  assert (C : forall p c, (0 <= p <= 2 ^ 27)%Z -> (Z.abs c <= 2 ^ 29)%Z -> checked (p * c) = Some (p * c)%Z).
  { intros p c Hp Hc. apply checked_some. assert (Z.abs (p * c) <= 2 ^ 27 * 2 ^ 29)%Z by (rewrite Z.abs_mul; apply Z.mul_le_mono_nonneg; lia). lia. }
  destruct k as [|a [|b [|c [|d k]]]]; cbn [length] in L; try lia; repeat (apply Forall_cons_iff in F; let A := fresh "A" in destruct F as [A F]); cbn [map2 all_some]; rewrite !C by (assumption || lia); eexists; reflexivity.
Qed.
Lemma equal_defined : forall D a b, (1 <= D <= 3)%nat -> small_key D a -> small_key D b -> machine_equal a b = Some (hash_equal a b).
Proof.
  intros D a b HD [La Fa] [Lb Fb]. unfold machine_equal, hash_equal, squared_norm.
  assert (S : forall x y, (Z.abs x <= 2 ^ 29)%Z -> (Z.abs y <= 2 ^ 29)%Z -> checked (x - y) = Some (x - y)%Z) by (intros x y Hx Hy; apply checked_some; lia).
  assert (N : forall x y, (Z.abs x <= 2 ^ 29)%Z -> (Z.abs y <= 2 ^ 29)%Z -> (0 <= (x - y) * (x - y) <= 2 ^ 60)%Z).
  { intros x y Hx Hy. replace ((x - y) * (x - y))%Z with (Z.abs (x - y) * Z.abs (x - y))%Z by (rewrite <- Z.abs_mul, Z.abs_eq; [reflexivity|apply Z.square_nonneg]).
    assert (0 <= Z.abs (x - y) <= 2 ^ 30)%Z by lia. split; [nia|]. change (2 ^ 60)%Z with (2 ^ 30 * 2 ^ 30)%Z. apply Z.mul_le_mono_nonneg; lia. }
  destruct a as [|a1 [|a2 [|a3 [|a4 a]]]]; cbn [length] in La; try lia; destruct b as [|b1 [|b2 [|b3 [|b4 b]]]]; cbn [length] in Lb; try lia;
    repeat (apply Forall_cons_iff in Fa; let A := fresh "A" in destruct Fa as [A Fa]); repeat (apply Forall_cons_iff in Fb; let A := fresh "B" in destruct Fb as [A Fb]);
    cbn [map2 map all_some fold_right]; rewrite !S by assumption; cbn [all_some map].
  - pose proof (N a1 b1 A B) as N1. rewrite (checked_some ((a1 - b1) * (a1 - b1))) by lia. cbn [all_some fold_right]. rewrite checked_some by lia. reflexivity.
  - pose proof (N a1 b1 A B) as N1. pose proof (N a2 b2 A0 B0) as N2. rewrite (checked_some ((a1 - b1) * (a1 - b1))), (checked_some ((a2 - b2) * (a2 - b2))) by lia. cbn [all_some fold_right]. rewrite checked_some by lia. reflexivity.
  - pose proof (N a1 b1 A B) as N1. pose proof (N a2 b2 A0 B0) as N2. pose proof (N a3 b3 A1 B1) as N3. rewrite (checked_some ((a1 - b1) * (a1 - b1))), (checked_some ((a2 - b2) * (a2 - b2))), (checked_some ((a3 - b3) * (a3 - b3))) by lia.
    cbn [all_some fold_right]. rewrite checked_some by lia. reflexivity.
Qed.

Definition small_table (D : nat) (t : table) : Prop := Forall (fun e => small_key D (fst e)) t.
Lemma emplace_defined : forall D t key id, (1 <= D <= 3)%nat -> small_table D t -> small_key D key -> machine_emplace t key id = Some (emplace t key id) /\ small_table D (emplace t key id).
Proof.
  intros D t key id HD Ht Hk. unfold machine_emplace. destruct (hash_defined D key HD Hk) as [h ->]. induction Ht as [|[k ids] t He Ht [IH1 IH2]]; cbn [emplace_at emplace].
  - split; [reflexivity|]. apply Forall_cons; [exact Hk|apply Forall_nil].
  - rewrite (equal_defined D k key HD He Hk). destruct (hash_equal k key); [split; [reflexivity|apply Forall_cons; assumption]|]. rewrite IH1. split; [reflexivity|apply Forall_cons; assumption].
Qed.
Lemma find_defined : forall D t key, (1 <= D <= 3)%nat -> small_table D t -> small_key D key -> machine_find t key = Some (find t key).
Proof.
  intros D t key HD Ht Hk. unfold machine_find. destruct (hash_defined D key HD Hk) as [h ->]. induction Ht as [|[k ids] t He Ht IH]; cbn [find_at find]; [reflexivity|].
  rewrite (equal_defined D k key HD He Hk). destruct (hash_equal k key); [reflexivity|exact IH].
Qed.
Lemma small_keys : forall D t, small_table D t -> keys_of_length D t.
Proof. intros D t H. eapply Forall_impl; [|exact H]. intros e [L _]. exact L. Qed.

(** ** Coordinates *)

(** The coordinate [x] divided by the cell size, after rounding. *)
Definition quotient (h x : R) : R := rnd (x / h).
Lemma quotient_mono : forall h x y, 0 < h -> x <= y -> quotient h x <= quotient h y.
Proof. intros h x y Hh H. apply rnd_le. unfold Rdiv. apply Rmult_le_compat_r; [left; apply Rinv_0_lt_compat, Hh|exact H]. Qed.
Definition within (h x : double) : Prop := fin x /\ Rabs (val x) <= IZR (2 ^ 29) * val h.
Lemma quotient_bound : forall h x, 0 < h -> Rabs x <= IZR (2 ^ 29) * h -> Rabs (x / h) <= IZR (2 ^ 29) /\ Rabs (quotient h x) <= IZR (2 ^ 29).
Proof.
  intros h x Hh Hx. assert (Q : Rabs (x / h) <= IZR (2 ^ 29)).
  { unfold Rdiv. rewrite Rabs_mult, (Rabs_pos_eq (/ h)) by (left; apply Rinv_0_lt_compat, Hh). apply Rmult_le_reg_r with h; [exact Hh|]. rewrite Rmult_assoc, Rinv_l, Rmult_1_r by lra. exact Hx. }
  split; [exact Q|]. apply abs_le in Q.
  assert (F1 : rnd (IZR (2 ^ 29)) = IZR (2 ^ 29)) by (apply rnd_format, format_int; lia). assert (F2 : rnd (- IZR (2 ^ 29)) = - IZR (2 ^ 29)) by (rewrite <- opp_IZR; apply rnd_format, format_int; lia).
  apply Rabs_le. unfold quotient. split; [rewrite <- F2|rewrite <- F1]; apply rnd_le; lra.
Qed.
Lemma div_defined : forall h x, fin h -> 0 < val h -> within h x -> fin (fdiv x h) /\ val (fdiv x h) = quotient (val h) (val x).
Proof.
  intros h x Fh Hh [Fx Bx]. apply div_rnd; [exact Fx|lra|]. destruct (quotient_bound _ _ Hh Bx) as [Q _]. apply Rle_trans with (1 := Q). unfold big. change (2 ^ 29)%Z with (Zpower radix2 29). rewrite IZR_Zpower by lia. apply bpow_le. lia.
Qed.
Lemma times_one : forall x, fin x -> Rabs (val x) <= big -> fin (fmul x (of_int 1)) /\ val (fmul x (of_int 1)) = val x.
Proof.
  intros x F B. destruct (of_int_exact 1) as [F1 E1]; [lia|]. destruct (mul_rnd x (of_int 1) F F1) as [Fm Em]; [rewrite E1, Rmult_1_r; exact B|].
  split; [exact Fm|]. rewrite Em, E1, Rmult_1_r. apply rnd_format, format_val.
Qed.
Lemma floor_small : forall q, Rabs q <= IZR (2 ^ 29) -> (Z.abs (Zfloor q) <= 2 ^ 29)%Z.
Proof.
  intros q H. apply abs_le in H. assert (- 2 ^ 29 <= Zfloor q)%Z by (apply Zfloor_lub; rewrite opp_IZR; lra). assert (Zfloor q <= 2 ^ 29)%Z; [|lia].
  apply le_IZR. apply Rle_trans with q; [apply Zfloor_lb|lra].
Qed.
Lemma to_int_floor_small : forall q, fin q -> Rabs (val q) <= IZR (2 ^ 29) -> to_int (ffloor q) = Some (Zfloor (val q)).
Proof.
  intros q F H. destruct (ffloor_val q F) as [Ff Ef]. assert (Z : Ztrunc (val (ffloor q)) = Zfloor (val q)) by (rewrite Ef; apply Ztrunc_IZR). rewrite <- Z. apply to_int_spec; [exact Ff|]. rewrite Z.
  pose proof (floor_small _ H). lia.
Qed.
Lemma coordinate_defined : forall h x, fin h -> 0 < val h -> Rabs (val x) <= big -> within h x -> fcoordinate h x = Some (Zfloor (quotient (val h) (val x))).
Proof.
  intros h x Fh Hh Bx W. destruct W as [Fx Wx]. destruct (times_one x Fx Bx) as [F1 E1]. destruct (div_defined h (fmul x (of_int 1)) Fh Hh) as [Fd Ed]; [split; [exact F1|rewrite E1; exact Wx]|]. rewrite E1 in Ed.
  unfold fcoordinate. rewrite to_int_floor_small; [rewrite Ed; reflexivity|exact Fd|]. rewrite Ed. apply quotient_bound; assumption.
Qed.

(** ** The cells examined for a point *)

Lemma half_integers_small : forall q r, fin q -> val q = IZR r -> (Z.abs r <= 2 ^ 29)%Z ->
  to_int (ffloor (fsub q (dbl 1 (-1)))) = Some (r - 1)%Z /\ to_int (ffloor (fadd q (dbl 1 (-1)))) = Some r.
Proof.
  intros q r F E B. destruct half_val as [Fh Eh]. assert (B0 : - IZR (2 ^ 29) <= IZR r <= IZR (2 ^ 29)) by (rewrite <- opp_IZR; split; apply IZR_le; lia).
  assert (BB : IZR (2 ^ 29) + 1 <= big). { apply Rle_trans with (bpow radix2 51); [cbn; lra|apply bpow_le; lia]. }
  destruct (sub_rnd q (dbl 1 (-1)) F Fh) as [F1 E1]; [rewrite E, Eh; apply Rabs_le; lra|]. destruct (add_rnd q (dbl 1 (-1)) F Fh) as [F2 E2]; [rewrite E, Eh; apply Rabs_le; lra|].
  rewrite E, Eh in E1, E2.
  rewrite rnd_format in E1 by (replace (IZR r - / 2) with (IZR (2 * r - 1) * / 2) by (rewrite minus_IZR, mult_IZR; lra); apply format_half; lia).
  rewrite rnd_format in E2 by (replace (IZR r + / 2) with (IZR (2 * r + 1) * / 2) by (rewrite plus_IZR, mult_IZR; lra); apply format_half; lia).
  destruct (ffloor_val _ F1) as [G1 V1]. destruct (ffloor_val _ F2) as [G2 V2].
  assert (Z1 : Zfloor (val (fsub q (dbl 1 (-1)))) = (r - 1)%Z) by (apply Zfloor_imp; rewrite E1, !plus_IZR, minus_IZR; lra).
  assert (Z2 : Zfloor (val (fadd q (dbl 1 (-1)))) = r) by (apply Zfloor_imp; rewrite E2, plus_IZR; lra).
  rewrite Z1 in V1. rewrite Z2 in V2.
  split; [rewrite <- (Ztrunc_IZR (r - 1)), <- V1|rewrite <- (Ztrunc_IZR r), <- V2]; (apply to_int_spec; [assumption|]); [rewrite V1|rewrite V2]; rewrite Ztrunc_IZR; lia.
Qed.

(** The indices examined on one axis. *)
Definition indices (q : double) : list Z :=
  if near_integer q then [(ZnearestA (val q) - 1)%Z; ZnearestA (val q)] else [Zfloor (val q)].
Lemma nearest_small : forall q, Rabs q <= IZR (2 ^ 29) -> (Z.abs (ZnearestA q) <= 2 ^ 29)%Z.
Proof.
  intros q H. apply abs_le in H. pose proof (Znearest_half (Z.leb 0) q) as D. apply abs_le in D.
  assert (ZnearestA q < 2 ^ 29 + 1)%Z by (apply lt_IZR; rewrite plus_IZR; lra). assert (- 2 ^ 29 - 1 < ZnearestA q)%Z by (apply lt_IZR; rewrite minus_IZR, opp_IZR; lra). lia.
Qed.
Lemma indices_defined : forall q, fin q -> Rabs (val q) <= IZR (2 ^ 29) -> findices q = Some (indices q).
Proof.
  intros q F H. unfold findices, indices. destruct (near_integer q).
  - destruct (fround_val q F) as [Fr Er]. destruct (half_integers_small _ _ Fr Er (nearest_small _ H)) as [A B]. rewrite A, B. reflexivity.
  - rewrite to_int_floor_small by assumption. reflexivity.
Qed.
Lemma floor_in_indices : forall q, In (Zfloor (val q)) (indices q).
Proof.
  intros q. unfold indices. destruct (near_integer q); [|left; reflexivity]. pose proof (Znearest_half (Z.leb 0) (val q)) as D. apply abs_le in D. set (r := ZnearestA (val q)) in *.
  destruct (Rlt_le_dec (val q) (IZR r)) as [K|K]; [left|right; left]; symmetry; apply Zfloor_imp; rewrite plus_IZR, ?minus_IZR; lra.
Qed.
(** An integer near a double of magnitude at least 1/2 is equal to it, and near 0 the square of the double is below that of EPSILON. *)
Lemma near_integer_close : forall q, fin q -> Rabs (val q) <= IZR (2 ^ 29) -> near_integer q = true -> Rabs (val q - IZR (ZnearestA (val q))) <= bpow radix2 (-52).
Proof.
  intros q F B N. destruct (Rle_or_lt (/ 2) (Rabs (val q))) as [K|K].
  - apply (near_integer_spec q F K) in N. destruct N as [z E]. rewrite E. replace (ZnearestA (IZR z)) with z by (symmetry; apply Znearest_imp; rewrite Rminus_eq_0, Rabs_R0; lra). rewrite Rminus_eq_0, Rabs_R0. apply bpow_ge_0.
  - assert (Z : ZnearestA (val q) = 0%Z). { apply Znearest_imp. rewrite Rminus_0_r. exact K. }
    rewrite Z, Rminus_0_r. unfold near_integer in N. destruct (fround_val q F) as [Fr Er]. rewrite Z in Er.
    assert (Kb : Rabs (val q - val (fround q)) <= big). { rewrite Er, Rminus_0_r. apply Rle_trans with 1; [lra|]. change 1 with (bpow radix2 0). apply bpow_le. lia. }
    destruct (sub_rnd q (fround q) F Fr Kb) as [Fd Ed]. rewrite Er, Rminus_0_r, (rnd_format (val q) (format_val q)) in Ed. set (d := fsub q (fround q)) in *. clearbody d.
    assert (Kd : Rabs (val d * val d) <= big). { rewrite Ed, Rabs_mult. apply Rle_trans with (1 * 1); [apply Rmult_le_compat; try apply Rabs_pos; lra|]. rewrite Rmult_1_l. change 1 with (bpow radix2 0). apply bpow_le. lia. }
    destruct (mul_rnd d d Fd Fd Kd) as [Fm Em]. destruct EPS2_val as [F2 E2]. apply (flt_spec _ _ Fm F2) in N. rewrite Em, Ed in N.
    apply Rnot_lt_le. intros G. assert (S : bpow radix2 (-104) <= val q * val q).
    { replace (val q * val q) with (Rabs (val q) * Rabs (val q)) by (rewrite <- Rabs_mult; apply Rabs_pos_eq, Rle_0_sqr). change (-104)%Z with (-52 + -52)%Z. rewrite bpow_plus. pose proof (bpow_gt_0 radix2 (-52)). apply Rmult_le_compat; lra. }
    assert (S2 : bpow radix2 (-104) <= rnd (val q * val q)) by (rewrite <- (rnd_format (bpow radix2 (-104))) by (apply format_bpow; lia); apply rnd_le; exact S).
    assert (bpow radix2 (-106) <= bpow radix2 (-104)) by (apply bpow_le; lia). lra.
Qed.
Lemma indices_near : forall q i, fin q -> Rabs (val q) <= IZR (2 ^ 29) -> In i (indices q) -> IZR i - bpow radix2 (-52) <= val q <= IZR i + 1 + bpow radix2 (-52).
Proof.
  intros q i F B I. pose proof (bpow_gt_0 radix2 (-52)). unfold indices in I. destruct (near_integer q) eqn:N.
  - pose proof (near_integer_close q F B N) as D. apply abs_le in D. destruct I as [<-|[<-|[]]]; rewrite ?minus_IZR; lra.
  - destruct I as [<-|[]]. pose proof (Zfloor_lb (val q)). pose proof (Zfloor_ub (val q)). lra.
Qed.
Lemma indices_small : forall q i, Rabs (val q) <= IZR (2 ^ 29 - 1) -> In i (indices q) -> (Z.abs i <= 2 ^ 29)%Z.
Proof.
  intros q i B I. pose proof (Znearest_half (Z.leb 0) (val q)) as D. apply abs_le in D, B. unfold indices in I. destruct (near_integer q).
  - assert (ZnearestA (val q) < 2 ^ 29)%Z by (apply lt_IZR; rewrite minus_IZR in B; lra). assert (- 2 ^ 29 < ZnearestA (val q))%Z by (apply lt_IZR; rewrite opp_IZR; rewrite minus_IZR in B; lra).
    destruct I as [<-|[<-|[]]]; lia.
  - destruct I as [<-|[]]. apply floor_small. rewrite minus_IZR in B. apply Rabs_le. lra.
Qed.

Definition quotients (h : double) (p : list double) : list double := map (fun x => fdiv x h) p.
Definition in_reach (h : double) (p : list double) : Prop := Forall (fun x => fin x /\ Rabs (val x) <= IZR (2 ^ 28) * val h) p.
Lemma reach_within : forall h x, 0 < val h -> fin x /\ Rabs (val x) <= IZR (2 ^ 28) * val h -> within h x.
Proof. intros h x Hh [F B]. split; [exact F|]. apply Rle_trans with (1 := B). apply Rmult_le_compat_r; [lra|]. apply IZR_le. lia. Qed.
Lemma reach_quotient : forall h x, fin h -> 0 < val h -> fin x /\ Rabs (val x) <= IZR (2 ^ 28) * val h ->
  fin (fdiv x h) /\ val (fdiv x h) = quotient (val h) (val x) /\ Rabs (val (fdiv x h)) <= IZR (2 ^ 28).
Proof.
  intros h x Fh Hh W. destruct (div_defined h x Fh Hh (reach_within h x Hh W)) as [A B]. split; [exact A|]. split; [exact B|]. rewrite B. destruct W as [_ W].
  assert (Q : Rabs (val x / val h) <= IZR (2 ^ 28)).
  { unfold Rdiv. rewrite Rabs_mult, (Rabs_pos_eq (/ val h)) by (left; apply Rinv_0_lt_compat, Hh). apply Rmult_le_reg_r with (val h); [exact Hh|]. rewrite Rmult_assoc, Rinv_l, Rmult_1_r by lra. exact W. }
  apply abs_le in Q.
  assert (F1 : rnd (IZR (2 ^ 28)) = IZR (2 ^ 28)) by (apply rnd_format, format_int; lia). assert (F2 : rnd (- IZR (2 ^ 28)) = - IZR (2 ^ 28)) by (rewrite <- opp_IZR; apply rnd_format, format_int; lia).
  apply Rabs_le. unfold quotient. split; [rewrite <- F2|rewrite <- F1]; apply rnd_le; lra.
Qed.
Lemma le28 : IZR (2 ^ 28) <= IZR (2 ^ 29). Proof. apply IZR_le. lia. Qed.
Lemma cells_defined : forall h p, fin h -> 0 < val h -> in_reach h p -> fcells h p = Some (list_product (map indices (quotients h p))).
Proof.
  intros h p Fh Hh R0. unfold fcells. fold (quotients h p).
  assert (Q : forall q, In q (quotients h p) -> fin q /\ Rabs (val q) <= IZR (2 ^ 29)).
  { intros q Hq. apply in_map_iff in Hq. destruct Hq as (x & <- & Hx). unfold in_reach in R0. rewrite Forall_forall in R0. destruct (reach_quotient h x Fh Hh (R0 x Hx)) as (A & _ & B). pose proof le28. split; [exact A|lra]. }
  rewrite (all_some_map _ _ _ (fun q => Zfloor (val q))) by (intros q Hq; destruct (Q q Hq); apply to_int_floor_small; assumption).
  rewrite (all_some_map _ _ _ indices) by (intros q Hq; destruct (Q q Hq); apply indices_defined; assumption).
  destruct (negb (existsb (fun b => b) (map near_integer (quotients h p)))) eqn:E; [|reflexivity]. f_equal. apply negb_true_iff in E.
  clear Q. induction (quotients h p) as [|q l IH]; [reflexivity|]. cbn [map existsb] in E. apply orb_false_iff in E. destruct E as [E1 E2]. assert (Ei : indices q = [Zfloor (val q)]) by (unfold indices; rewrite E1; reflexivity). cbn [map list_product]. rewrite Ei.
  rewrite <- (IH E2). reflexivity.
Qed.

(** ** Elements *)

Definition good_element (D : nat) (h : double) (nodes : list (list double)) : Prop :=
  nodes <> [] /\ Forall (fun n => length n = D /\ in_reach h n) nodes.
Lemma map2_val : forall (f : double -> double -> double) (g : R -> R -> R) (P : double -> Prop), (forall x y, P x -> P y -> P (f x y) /\ val (f x y) = g (val x) (val y)) ->
  forall a b, length a = length b -> Forall P a -> Forall P b -> Forall P (map2 f a b) /\ map val (map2 f a b) = map2 g (map val a) (map val b).
Proof.
  intros f g P H. induction a as [|x a IH]; intros [|y b] L Fa Fb; try discriminate L; [split; [apply Forall_nil|reflexivity]|].
  apply Forall_cons_iff in Fa, Fb. destruct Fa as [Px Fa], Fb as [Py Fb]. destruct (H x y Px Py) as [P1 E1]. injection L as L. destruct (IH b L Fa Fb) as [P2 E2].
  cbn [map2 map]. split; [apply Forall_cons; assumption|]. rewrite E1, E2. reflexivity.
Qed.
Lemma colwise_val : forall (f : double -> double -> double) (g : R -> R -> R) (P : double -> Prop) D, (forall x y, P x -> P y -> P (f x y) /\ val (f x y) = g (val x) (val y)) ->
  forall nodes, nodes <> [] -> Forall (fun n => length n = D /\ Forall P n) nodes ->
  Forall P (fcolwise f nodes) /\ map val (fcolwise f nodes) = colwise g (map (map val) nodes).
Proof.
  intros f g P D H [|n ns] NE F; [congruence|]. clear NE. cbn [fcolwise colwise map]. apply Forall_cons_iff in F. destruct F as [[Ln Pn] F]. revert n Ln Pn.
  induction F as [|m ns [Lm Pm] F IH]; intros n Ln Pn; cbn [fold_left map]; [split; [exact Pn|reflexivity]|].
  destruct (map2_val f g P H n m ltac:(congruence) Pn Pm) as [P1 E1]. rewrite <- E1. apply IH; [rewrite HashGridProofs.map2_length; congruence|exact P1].
Qed.
Lemma fmin_val : forall x y, fin x -> fin y -> val (fmin x y) = Rmin (val x) (val y).
Proof.
  intros x y Fx Fy. unfold fmin, Rmin. pose proof (flt_spec y x Fy Fx) as S. destruct (flt y x), (Rle_dec (val x) (val y)); try reflexivity; [assert (val y < val x) by (apply S; reflexivity); lra|].
  assert (val y < val x) by lra. apply S in H. discriminate H.
Qed.
Lemma fmax_val : forall x y, fin x -> fin y -> val (fmax x y) = Rmax (val x) (val y).
Proof.
  intros x y Fx Fy. unfold fmax, Rmax. pose proof (flt_spec x y Fx Fy) as S. destruct (flt x y), (Rle_dec (val x) (val y)); try reflexivity; [assert (val x < val y) by (apply S; reflexivity); lra|].
  assert (~ val x < val y) by (intros K; apply S in K; discriminate K). lra.
Qed.
Lemma element_bounds : forall D h nodes, good_element D h nodes ->
  in_reach h (fcolwise fmin nodes) /\ map val (fcolwise fmin nodes) = colwise Rmin (map (map val) nodes) /\
  in_reach h (fcolwise fmax nodes) /\ map val (fcolwise fmax nodes) = colwise Rmax (map (map val) nodes).
Proof.
  intros D h nodes [NE F]. assert (A : Forall (fun n => length n = D /\ Forall (fun x => fin x /\ Rabs (val x) <= IZR (2 ^ 28) * val h) n) nodes) by exact F.
  destruct (colwise_val fmin Rmin (fun x => fin x /\ Rabs (val x) <= IZR (2 ^ 28) * val h) D) with (nodes := nodes) as [A1 A2]; [|exact NE|exact A|].
  { intros x y Hx Hy. split; [unfold fmin; destruct (flt y x); assumption|apply fmin_val; tauto]. }
  destruct (colwise_val fmax Rmax (fun x => fin x /\ Rabs (val x) <= IZR (2 ^ 28) * val h) D) with (nodes := nodes) as [B1 B2]; [|exact NE|exact A|].
  { intros x y Hx Hy. split; [unfold fmax; destruct (flt x y); assumption|apply fmax_val; tauto]. }
  repeat split; assumption.
Qed.

(** The keys of the cells an element is added to. *)
Definition keys_of (h : R) (nodes : list (list R)) : list (list Z) :=
  list_product (map2 zrange (map (fun x => Zfloor (quotient h x)) (colwise Rmin nodes)) (map (fun x => Zfloor (quotient h x)) (colwise Rmax nodes))).
Lemma good_valid : forall D h nodes, good_element D h nodes -> valid_element D (map (map val) nodes).
Proof.
  intros D h nodes [NE F]. split; [destruct nodes; [congruence|discriminate]|]. rewrite Forall_map. eapply Forall_impl; [|exact F]. intros n [L _]. rewrite map_length. exact L.
Qed.
Lemma keys_small : forall D h nodes, 0 < val h -> good_element D h nodes -> Forall (small_key D) (keys_of (val h) (map (map val) nodes)).
Proof.
  intros D h nodes Hh G. rewrite Forall_forall. intros key Hk. apply in_list_product in Hk. destruct (element_bounds D h nodes G) as (A1 & A2 & B1 & B2). rewrite <- A2, <- B2 in Hk. pose proof (good_valid D h nodes G) as V.
  assert (LA : length (fcolwise fmin nodes) = D) by (rewrite <- (map_length val), A2; apply colwise_length; exact V).
  assert (LB : length (fcolwise fmax nodes) = D) by (rewrite <- (map_length val), B2; apply colwise_length; exact V).
  rewrite <- LA in LB |- *. clear - Hk A1 B1 LB Hh. revert key Hk LB. revert A1 B1. generalize (fcolwise fmin nodes) as lo. generalize (fcolwise fmax nodes) as hi. intros hi lo. revert hi.
  induction lo as [|x lo IH]; intros [|y hi] A1 B1 key Hk LB; try discriminate LB; cbn [map map2] in Hk; inversion Hk; subst; [split; [reflexivity|apply Forall_nil]|].
  apply Forall_cons_iff in A1, B1. destruct A1 as [Ax A1], B1 as [By B1]. destruct (IH hi A1 B1 l' H3 ltac:(cbn in LB; lia)) as [L F]. split; [cbn [length]; lia|]. apply Forall_cons; [|exact F].
  apply in_zrange in H1. pose proof (floor_small _ (proj2 (quotient_bound (val h) (val x) Hh (proj2 (reach_within h x Hh Ax))))). pose proof (floor_small _ (proj2 (quotient_bound (val h) (val y) Hh (proj2 (reach_within h y Hh By))))). lia.
Qed.
Lemma coordinates_defined : forall h p, fin h -> 0 < val h <= bpow radix2 900 -> in_reach h p -> all_some (map (fcoordinate h) p) = Some (map (fun x => Zfloor (quotient (val h) x)) (map val p)).
Proof.
  intros h p Fh [Hh Hb] R0. rewrite map_map. apply all_some_map. intros x Hx. unfold in_reach in R0. rewrite Forall_forall in R0. specialize (R0 x Hx). apply coordinate_defined; [exact Fh|exact Hh| |apply reach_within; assumption].
  apply Rle_trans with (1 := proj2 R0). unfold big. apply Rle_trans with (bpow radix2 28 * bpow radix2 900); [|rewrite <- bpow_plus; apply bpow_le; lia]. change (IZR (2 ^ 28)) with (bpow radix2 28). apply Rmult_le_compat_l; [apply bpow_ge_0|exact Hb].
Qed.
Lemma add_defined : forall D h t nodes id, (1 <= D <= 3)%nat -> fin h -> 0 < val h <= bpow radix2 900 -> small_table D t -> good_element D h nodes ->
  madd h t nodes id = Some (fold_left (fun t key => emplace t key id) (keys_of (val h) (map (map val) nodes)) t) /\
  small_table D (fold_left (fun t key => emplace t key id) (keys_of (val h) (map (map val) nodes)) t).
Proof.
  intros D h t nodes id HD Fh Hh Ht G. destruct (element_bounds D h nodes G) as (A1 & A2 & B1 & B2). unfold madd. rewrite !coordinates_defined by assumption. rewrite A2, B2. fold (keys_of (val h) (map (map val) nodes)).
  pose proof (keys_small D h nodes (proj1 Hh) G) as K. rewrite Forall_forall in K.
  apply (fold_some (list Z) table (fun t key => machine_emplace t key id) (fun t key => emplace t key id) (small_table D)); [exact Ht|]. intros t' key Ht' Hk. apply emplace_defined; [exact HD|exact Ht'|apply K, Hk].
Qed.

Definition good_history (D : nat) (h : double) (history : list (list (list double) * Z)) : Prop := Forall (fun op => good_element D h (fst op)) history.
Lemma run_defined : forall D h history, (1 <= D <= 3)%nat -> fin h -> 0 < val h <= bpow radix2 900 -> good_history D h history ->
  exists t, mrun h history = Some t /\ small_table D t /\
    forall key x, length key = D -> (In x (content t key) <-> exists nodes, In (nodes, x) history /\ In key (keys_of (val h) (map (map val) nodes))).
Proof.
  intros D h history HD Fh Hh G. unfold mrun.
  assert (M : forall t0, small_table D t0 -> exists t, fold_left (fun t op => match t with Some t => madd h t (fst op) (snd op) | None => None end) history (Some t0) = Some t /\ small_table D t /\
    forall key x, length key = D -> (In x (content t key) <-> In x (content t0 key) \/ exists nodes, In (nodes, x) history /\ In key (keys_of (val h) (map (map val) nodes)))).
  { induction G as [|[nodes id] history He G IH]; intros t0 H0.
    - exists t0. split; [reflexivity|]. split; [exact H0|]. intros key x _. split; [tauto|]. intros [A|(n & [] & _)]. exact A.
    - cbn [fold_left fst snd]. destruct (add_defined D h t0 nodes id HD Fh Hh H0 He) as [E S]. rewrite E. destruct (IH _ S) as (t & Et & St & Ct). exists t. split; [exact Et|]. split; [exact St|].
      intros key x Lk. rewrite (Ct key x Lk). destruct (in_content_fold D (keys_of (val h) (map (map val) nodes)) t0 id key x (small_keys D t0 H0)) as [I1 _]; [|exact Lk|].
      { eapply Forall_impl; [|apply (keys_small D h nodes (proj1 Hh) He)]. intros k [L _]. exact L. }
      rewrite I1. split.
      + intros [[A|[-> A]]|(n & A & B)]; [left; exact A|right; exists nodes; split; [left; reflexivity|exact A]|right; exists n; split; [right; exact A|exact B]].
      + intros [A|(n & [A|A] & B)]; [left; left; exact A| |right; exists n; split; assumption]. injection A as <- <-. left. right. split; [reflexivity|exact B]. }
  destruct (M [] (Forall_nil _)) as (t & A & B & C). exists t. split; [exact A|]. split; [exact B|]. intros key x Lk. rewrite (C key x Lk). split; [intros [[]|K]; exact K|intros K; right; exact K].
Qed.

Lemma Forall2_map_l : forall (A B C : Type) (f : A -> B) (P : B -> C -> Prop) l m, Forall2 P (map f l) m <-> Forall2 (fun a c => P (f a) c) l m.
Proof. intros A B C f P. induction l as [|a l IH]; intros m; cbn [map]; split; intros H; inversion H; subst; constructor; try assumption; apply IH; assumption. Qed.
Definition examined (h : double) (p : list double) : list (list Z) := list_product (map indices (quotients h p)).
Lemma examined_small : forall h p key, fin h -> 0 < val h -> in_reach h p -> In key (examined h p) -> small_key (length p) key.
Proof.
  intros h p key Fh Hh R0 Hk. apply in_list_product in Hk. unfold quotients in Hk. rewrite map_map in Hk. apply Forall2_map_l in Hk. revert key Hk. induction R0 as [|x p Hx R0 IH]; intros key Hk; inversion Hk; subst; [split; [reflexivity|apply Forall_nil]|].
  destruct (IH _ H3) as [L F]. split; [cbn [length]; lia|]. apply Forall_cons; [|exact F]. destruct (reach_quotient h x Fh Hh Hx) as (_ & _ & B). apply (indices_small (fdiv x h)); [|exact H1]. apply Rle_trans with (1 := B). apply IZR_le. lia.
Qed.
Lemma get_defined : forall D h history p, (1 <= D <= 3)%nat -> fin h -> 0 < val h <= bpow radix2 900 -> good_history D h history -> length p = D -> in_reach h p ->
  exists t ids, mrun h history = Some t /\ mget h t p = Some ids /\ NoDup ids /\
    forall x, In x ids <-> exists nodes key, In (nodes, x) history /\ In key (examined h p) /\ In key (keys_of (val h) (map (map val) nodes)).
Proof.
  intros D h history p HD Fh Hh G Lp R0. destruct (run_defined D h history HD Fh Hh G) as (t & Et & St & Ct). exists t. unfold mget. rewrite (cells_defined h p Fh (proj1 Hh) R0). fold (examined h p).
  pose proof (fun key Hk => examined_small h p key Fh (proj1 Hh) R0 Hk) as K. rewrite Lp in K.
  rewrite (all_some_map _ _ _ (find t)) by (intros key Hk; apply (find_defined D); [exact HD|exact St|apply K, Hk]).
  eexists. split; [exact Et|]. split; [reflexivity|]. split; [apply NoDup_nodup|]. intros x. rewrite nodup_In, in_flat_map. split.
  - intros (r & Hr & Hx). apply in_map_iff in Hr. destruct Hr as (key & <- & Hk). change (In x (content t key)) in Hx. apply (Ct key x) in Hx; [|apply K, Hk]. destruct Hx as (nodes & A & B). exists nodes, key. auto.
  - intros (nodes & key & A & B & C). exists (find t key). split; [apply in_map; exact B|]. change (In x (content t key)). apply (Ct key x); [apply K, B|]. exists nodes. auto.
Qed.
