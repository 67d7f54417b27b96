(** The machine-integer functions of GridMachModel.v agree with the unbounded ones of
    GridModel.v as long as the items they number are at most 2^63. *)

From Coq Require Import ZArith List Lia Bool.
From Verif Require Import GridModel GridSpec GridProofs GridMachModel.
Import ListNotations.
Open Scope Z_scope.

Lemma u64_small : forall z, 0 <= z < 2 ^ 64 -> u64 z = z.
Proof. intros. unfold u64. apply Z.mod_small. assumption. Qed.

Lemma s64_small : forall z, - 2 ^ 63 <= z < 2 ^ 63 -> s64 z = z.
Proof.
  intros z H. unfold s64. change (2 ^ 64) with (2 * 2 ^ 63) in *.
  set (h := 2 ^ 63) in *. assert (0 < h) by reflexivity.
  destruct (Z_lt_le_dec z 0).
  - rewrite <- (Z.mod_unique z (2 * h) (-1) (z + 2 * h)) by lia.
    destruct (z + 2 * h <? h) eqn:E; [apply Z.ltb_lt in E; lia|lia].
  - rewrite Z.mod_small by lia.
    destruct (z <? h) eqn:E; [lia|apply Z.ltb_ge in E; lia].
Qed.

Lemma s64_range : forall z, - 2 ^ 63 <= s64 z < 2 ^ 63.
Proof.
  intros z. unfold s64. pose proof (Z.mod_pos_bound z (2 ^ 64) eq_refl).
  change (2 ^ 64) with (2 * 2 ^ 63) in *. set (h := 2 ^ 63) in *.
  destruct (_ <? h) eqn:E; [apply Z.ltb_lt in E|apply Z.ltb_ge in E]; lia.
Qed.

Lemma u64_range : forall z, 0 <= u64 z < 2 ^ 64.
Proof. intros. apply Z.mod_pos_bound. reflexivity. Qed.

Lemma uadd_u64 : forall a b, uadd a b = u64 (a + b).
Proof. intros. unfold uadd, u64. symmetry. apply Z.add_mod. discriminate. Qed.
Lemma usub_u64 : forall a b, usub a b = u64 (a - b).
Proof. intros. unfold usub, u64. symmetry. apply Zminus_mod. Qed.
Lemma umul_u64 : forall a b, umul a b = u64 (a * b).
Proof. intros. unfold umul, u64. symmetry. apply Z.mul_mod. discriminate. Qed.
Lemma u64_u64 : forall z, u64 (u64 z) = u64 z.
Proof. intros. unfold u64. apply Z.mod_mod. discriminate. Qed.
Lemma s64_u64 : forall z, s64 (u64 z) = s64 z.
Proof. intros. unfold s64, u64. rewrite Z.mod_mod by discriminate. reflexivity. Qed.
Lemma u64_s64 : forall z, u64 (s64 z) = u64 z.
Proof.
  intros. unfold s64, u64. destruct (_ <? _).
  - apply Z.mod_mod. discriminate.
  - rewrite Zminus_mod, Z_mod_same_full, Z.sub_0_r, Z.mod_mod, Z.mod_mod by discriminate.
    reflexivity.
Qed.
Lemma u64_add_l : forall a b, u64 (u64 a + b) = u64 (a + b).
Proof. intros. unfold u64. apply Zplus_mod_idemp_l. Qed.
Lemma u64_add_r : forall a b, u64 (a + u64 b) = u64 (a + b).
Proof. intros. unfold u64. apply Zplus_mod_idemp_r. Qed.
Lemma u64_sub_l : forall a b, u64 (u64 a - b) = u64 (a - b).
Proof. intros. unfold u64. apply Zminus_mod_idemp_l. Qed.
Lemma u64_sub_r : forall a b, u64 (a - u64 b) = u64 (a - b).
Proof. intros. unfold u64. apply Zminus_mod_idemp_r. Qed.
Lemma u64_mul_l : forall a b, u64 (u64 a * b) = u64 (a * b).
Proof. intros. unfold u64. apply Zmult_mod_idemp_l. Qed.
Lemma u64_mul_r : forall a b, u64 (a * u64 b) = u64 (a * b).
Proof. intros. unfold u64. apply Zmult_mod_idemp_r. Qed.
Lemma u64_add_sl : forall a b, u64 (s64 a + b) = u64 (a + b).
Proof. intros. rewrite <- u64_add_l, u64_s64, u64_add_l. reflexivity. Qed.

(** Congruence modulo 2^64, through sums, differences, products and conversions. *)
Definition cong (x y : Z) : Prop := u64 x = u64 y.
Lemma cong_refl : forall x, cong x x. Proof. reflexivity. Qed.
Lemma cong_u64 : forall x y, cong x y -> cong (u64 x) y.
Proof. unfold cong. intros. rewrite u64_u64. assumption. Qed.
Lemma cong_s64 : forall x y, cong x y -> cong (s64 x) y.
Proof. unfold cong. intros. rewrite u64_s64. assumption. Qed.
Lemma cong_add : forall a a' b b', cong a a' -> cong b b' -> cong (a + b) (a' + b').
Proof.
  unfold cong. intros a a' b b' Ha Hb.
  rewrite <- (u64_add_l a), <- (u64_add_r _ b), Ha, Hb, u64_add_l, u64_add_r. reflexivity.
Qed.
Lemma cong_sub : forall a a' b b', cong a a' -> cong b b' -> cong (a - b) (a' - b').
Proof.
  unfold cong. intros a a' b b' Ha Hb.
  rewrite <- (u64_sub_l a), <- (u64_sub_r _ b), Ha, Hb, u64_sub_l, u64_sub_r. reflexivity.
Qed.
Lemma cong_mul : forall a a' b b', cong a a' -> cong b b' -> cong (a * b) (a' * b').
Proof.
  unfold cong. intros a a' b b' Ha Hb.
  rewrite <- (u64_mul_l a), <- (u64_mul_r _ b), Ha, Hb, u64_mul_l, u64_mul_r. reflexivity.
Qed.
Lemma cong_uadd : forall a a' b b', cong a a' -> cong b b' -> cong (uadd a b) (a' + b').
Proof. intros. rewrite uadd_u64. apply cong_u64, cong_add; assumption. Qed.
Lemma cong_usub : forall a a' b b', cong a a' -> cong b b' -> cong (usub a b) (a' - b').
Proof. intros. rewrite usub_u64. apply cong_u64, cong_sub; assumption. Qed.
Lemma cong_umul : forall a a' b b', cong a a' -> cong b b' -> cong (umul a b) (a' * b').
Proof. intros. rewrite umul_u64. apply cong_u64, cong_mul; assumption. Qed.

Ltac mcong :=
  match goal with
  | |- cong (uadd _ _) _ => eapply cong_uadd; mcong
  | |- cong (usub _ _) _ => eapply cong_usub; mcong
  | |- cong (umul _ _) _ => eapply cong_umul; mcong
  | |- cong (u64 _) _ => eapply cong_u64; mcong
  | |- cong (s64 _) _ => eapply cong_s64; mcong
  | |- cong _ _ => apply cong_refl
  end.

(** The machine value of an expression that is in range is its exact value. *)
Lemma u64_exact : forall x y, cong x y -> 0 <= y < 2 ^ 64 -> u64 x = y.
Proof. unfold cong. intros x y C H. rewrite C. apply u64_small; assumption. Qed.
Lemma s64_exact : forall x y, cong x y -> - 2 ^ 63 <= y < 2 ^ 63 -> s64 x = y.
Proof.
  unfold cong. intros x y C H. rewrite <- (s64_u64 x), C, s64_u64. apply s64_small; assumption.
Qed.
Lemma uadd_exact : forall a b y, cong (uadd a b) y -> 0 <= y < 2 ^ 64 -> uadd a b = y.
Proof. intros. rewrite <- (u64_exact _ _ H H0), uadd_u64, u64_u64. reflexivity. Qed.
Lemma usub_exact : forall a b y, cong (usub a b) y -> 0 <= y < 2 ^ 64 -> usub a b = y.
Proof. intros. rewrite <- (u64_exact _ _ H H0), usub_u64, u64_u64. reflexivity. Qed.
Lemma umul_exact : forall a b y, cong (umul a b) y -> 0 <= y < 2 ^ 64 -> umul a b = y.
Proof. intros. rewrite <- (u64_exact _ _ H H0), umul_u64, u64_u64. reflexivity. Qed.

Ltac mexact :=
  match goal with
  | |- uadd _ _ = _ => eapply uadd_exact; [mcong|]
  | |- usub _ _ = _ => eapply usub_exact; [mcong|]
  | |- umul _ _ = _ => eapply umul_exact; [mcong|]
  | |- s64 _ = _ => eapply s64_exact; [mcong|]
  | |- u64 _ = _ => eapply u64_exact; [mcong|]
  end.

Lemma udiv_exact : forall a b, 0 <= a < 2 ^ 64 -> 0 <= b < 2 ^ 64 -> udiv a b = a / b.
Proof. intros. unfold udiv. rewrite !u64_small by assumption. reflexivity. Qed.
Lemma umod_exact : forall a b, 0 <= a < 2 ^ 64 -> 0 <= b < 2 ^ 64 -> umod a b = a mod b.
Proof. intros. unfold umod. rewrite !u64_small by assumption. reflexivity. Qed.
Lemma ultb_exact : forall a b, 0 <= a < 2 ^ 64 -> 0 <= b < 2 ^ 64 -> ultb a b = (a <? b).
Proof. intros. unfold ultb. rewrite !u64_small by assumption. reflexivity. Qed.

(** Signed indices are converted exactly. *)
Definition fits (n : Z) : Prop := n <= 2 ^ 63.

Lemma fits_u : 2 ^ 63 < 2 ^ 64. Proof. reflexivity. Qed.
Lemma p63_pos : 0 < 2 ^ 63. Proof. reflexivity. Qed.

(** ** Two dimensions, with any radix: [n] is nx for cells and nx + 1 for nodes. *)

Lemma m_cell_index2 : forall nx c, - 2 ^ 63 <= cell_index_at2 nx c < 2 ^ 63 ->
  m_cell_index_at2 nx c = cell_index_at2 nx c.
Proof.
  intros nx [i j] H. unfold m_cell_index_at2. mexact. exact H.
Qed.

Lemma m_node_index2 : forall nx c, - 2 ^ 63 <= node_index_at2 nx c < 2 ^ 63 ->
  m_node_index_at2 nx c = node_index_at2 nx c.
Proof.
  intros nx [i j] H. unfold m_node_index_at2. mexact. exact H.
Qed.

Lemma m_cell_index3 : forall nx ny c, - 2 ^ 63 <= cell_index_at3 nx ny c < 2 ^ 63 ->
  m_cell_index_at3 nx ny c = cell_index_at3 nx ny c.
Proof.
  intros nx ny [[i j] k] H. unfold m_cell_index_at3. mexact. exact H.
Qed.

Lemma m_node_index3 : forall nx ny c, - 2 ^ 63 <= node_index_at3 nx ny c < 2 ^ 63 ->
  m_node_index_at3 nx ny c = node_index_at3 nx ny c.
Proof.
  intros nx ny [[i j] k] H. unfold m_node_index_at3. mexact. exact H.
Qed.

(** Only the indices below 2^63 matter: the coordinates of any such index are exact as soon
    as the radices are representable. *)
Lemma m_cell_coords2 : forall nx i, 0 < nx < 2 ^ 64 -> 0 <= i < 2 ^ 63 ->
  m_cell_coordinates_at2 nx i = cell_coordinates_at2 nx i.
Proof.
  intros nx i Hn Hi. pose proof fits_u.
  unfold m_cell_coordinates_at2, cell_coordinates_at2.
  rewrite udiv_exact by lia.
  pose proof (Z.div_mod i nx ltac:(lia)) as D. pose proof (Z.mod_pos_bound i nx ltac:(lia)).
  pose proof (Z.div_pos i nx ltac:(lia) ltac:(lia)).
  set (q := i / nx) in *. set (r := i mod nx) in *.
  assert (0 <= nx * q) by nia. assert (q <= nx * q) by nia.
  f_equal; mexact; lia.
Qed.

Lemma m_node_coords2 : forall nx i, 0 < nx -> nx + 1 < 2 ^ 64 -> 0 <= i < 2 ^ 63 ->
  m_node_coordinates_at2 nx i = node_coordinates_at2 nx i.
Proof.
  intros nx i Hn Hn1 Hi. pose proof fits_u.
  unfold m_node_coordinates_at2, node_coordinates_at2.
  rewrite (uadd_exact nx 1 (nx + 1)) by (try mcong; lia).
  exact (m_cell_coords2 (nx + 1) i ltac:(lia) Hi).
Qed.

Lemma m_cell_coords3 : forall nx ny i, 0 < nx -> 0 < ny -> nx * ny < 2 ^ 64 -> 0 <= i < 2 ^ 63 ->
  m_cell_coordinates_at3 nx ny i = cell_coordinates_at3 nx ny i.
Proof.
  intros nx ny i Hx Hy Hn Hi. pose proof fits_u.
  assert (nx <= nx * ny) by nia. assert (ny <= nx * ny) by nia.
  unfold m_cell_coordinates_at3, cell_coordinates_at3.
  assert (P : 0 < nx * ny) by nia.
  rewrite (umul_exact nx ny (nx * ny)) by (try mcong; lia). rewrite (udiv_exact i) by lia.
  destruct (idx3_decomp nx ny i Hx Hy) as (a & b & k & Ha & Hb & E & D1 & D2).
  rewrite D1, D2. 
  assert (K : 0 <= k) by (rewrite <- D1; apply Z.div_pos; lia).
  assert (S : i - k * nx * ny = b * nx + a) by (rewrite E; ring).
  assert (B : 0 <= b * nx) by nia.
  assert (0 <= k * nx * ny) by (apply Z.mul_nonneg_nonneg; [apply Z.mul_nonneg_nonneg|]; lia).
  assert (k <= k * (nx * ny)) by nia. assert (k * (nx * ny) = k * nx * ny) by ring.
  assert (b <= b * nx) by nia.
  assert (M : usub i (umul (umul k nx) ny) = b * nx + a).
  { rewrite <- S. mexact. lia. }
  rewrite M.
  rewrite udiv_exact by lia.
  replace ((b * nx + a) / nx) with b by (symmetry; apply radix_div; lia).
  f_equal; [f_equal|]; mexact; lia.
Qed.

Lemma m_node_coords3 : forall nx ny i, 0 < nx -> 0 < ny -> (nx + 1) * (ny + 1) < 2 ^ 64 ->
  0 <= i < 2 ^ 63 ->
  m_node_coordinates_at3 nx ny i = node_coordinates_at3 nx ny i.
Proof.
  intros nx ny i Hx Hy Hn Hi.
  assert (nx + 1 <= (nx + 1) * (ny + 1)) by nia. assert (ny + 1 <= (nx + 1) * (ny + 1)) by nia.
  unfold m_node_coordinates_at3, node_coordinates_at3.
  rewrite (uadd_exact nx 1 (nx + 1)), (uadd_exact ny 1 (ny + 1)) by (try mcong; lia).
  exact (m_cell_coords3 (nx + 1) (ny + 1) i ltac:(lia) ltac:(lia) Hn Hi).
Qed.

(** ** Counts *)

Lemma m_cells2 : forall nx ny, 0 <= nx * ny < 2 ^ 64 -> m_number_of_cells2 nx ny = nx * ny.
Proof. intros. unfold m_number_of_cells2. mexact. assumption. Qed.
Lemma m_nodes2 : forall nx ny, 0 <= (nx + 1) * (ny + 1) < 2 ^ 64 ->
  m_number_of_nodes2 nx ny = (nx + 1) * (ny + 1).
Proof. intros. unfold m_number_of_nodes2. mexact. assumption. Qed.
Lemma m_cells3 : forall nx ny nz, 0 <= nx * ny * nz < 2 ^ 64 ->
  m_number_of_cells3 nx ny nz = nx * ny * nz.
Proof. intros. unfold m_number_of_cells3. mexact. assumption. Qed.
Lemma m_nodes3 : forall nx ny nz, 0 <= (nx + 1) * (ny + 1) * (nz + 1) < 2 ^ 64 ->
  m_number_of_nodes3 nx ny nz = (nx + 1) * (ny + 1) * (nz + 1).
Proof. intros. unfold m_number_of_nodes3. mexact. assumption. Qed.
Lemma m_edges2 : forall nx ny, 0 <= number_of_edges2 nx ny < 2 ^ 64 ->
  m_number_of_edges2 nx ny = number_of_edges2 nx ny.
Proof. intros. unfold m_number_of_edges2. mexact. assumption. Qed.
Lemma m_edges3 : forall nx ny nz, 0 <= number_of_edges3 nx ny nz < 2 ^ 64 ->
  m_number_of_edges3 nx ny nz = number_of_edges3 nx ny nz.
Proof. intros. unfold m_number_of_edges3. mexact. assumption. Qed.
Lemma m_faces3 : forall nx ny nz, 0 <= number_of_faces3 nx ny nz < 2 ^ 64 ->
  m_number_of_faces3 nx ny nz = number_of_faces3 nx ny nz.
Proof. intros. unfold m_number_of_faces3. mexact. assumption. Qed.

(** ** Bijections transported along an agreement *)

Lemma mutually_inverse_ext : forall (A B : Type) (P : A -> Prop) (Q : B -> Prop) f g f' g',
  (forall a, P a -> Q (f a) -> f' a = f a) -> (forall b, Q b -> g' b = g b) ->
  mutually_inverse P Q f g -> mutually_inverse P Q f' g'.
Proof.
  intros A B P Q f g f' g' Hf Hg [H1 H2]. split.
  - intros a Pa. destruct (H1 a Pa) as [Qa E]. rewrite (Hf a Pa Qa), (Hg _ Qa). auto.
  - intros b Qb. destruct (H2 b Qb) as [Pb E]. rewrite (Hg b Qb). split; [assumption|].
    rewrite (Hf _ Pb); [assumption|]. rewrite E. exact Qb.
Qed.

Lemma m_cells2_inverse : forall nx ny, 0 < nx -> 0 < ny -> nx * ny <= 2 ^ 63 ->
  mutually_inverse (box2 nx ny) (below (m_number_of_cells2 nx ny))
                   (m_cell_index_at2 nx) (m_cell_coordinates_at2 nx).
Proof.
  intros nx ny Hx Hy Hf. pose proof fits_u.
  rewrite m_cells2 by nia.
  apply mutually_inverse_ext with (3 := cells2_inverse nx ny Hx Hy); unfold below, number_of_cells2.
  - intros a Ha Hq. apply m_cell_index2. pose proof p63_pos. lia.
  - intros b Hb. apply m_cell_coords2; nia.
Qed.

Lemma m_nodes2_inverse : forall nx ny, 0 < nx -> 0 < ny -> (nx + 1) * (ny + 1) <= 2 ^ 63 ->
  mutually_inverse (box2 (nx + 1) (ny + 1)) (below (m_number_of_nodes2 nx ny))
                   (m_node_index_at2 nx) (m_node_coordinates_at2 nx).
Proof.
  intros nx ny Hx Hy Hf. pose proof fits_u.
  rewrite m_nodes2 by nia.
  apply mutually_inverse_ext with (3 := nodes2_inverse nx ny Hx Hy); unfold below, number_of_nodes2.
  - intros a Ha Hq. apply m_node_index2. pose proof p63_pos. lia.
  - intros b Hb. apply m_node_coords2; nia.
Qed.

Lemma m_cells3_inverse : forall nx ny nz, 0 < nx -> 0 < ny -> 0 < nz -> nx * ny * nz <= 2 ^ 63 ->
  mutually_inverse (box3 nx ny nz) (below (m_number_of_cells3 nx ny nz))
                   (m_cell_index_at3 nx ny) (m_cell_coordinates_at3 nx ny).
Proof.
  intros nx ny nz Hx Hy Hz Hf. pose proof fits_u.
  assert (0 < nx * ny) by nia. assert (nx * ny <= nx * ny * nz) by nia.
  rewrite m_cells3 by nia.
  apply mutually_inverse_ext with (3 := cells3_inverse nx ny nz Hx Hy Hz); unfold below, number_of_cells3.
  - intros a Ha Hq. apply m_cell_index3. pose proof p63_pos. lia.
  - intros b Hb. apply m_cell_coords3; lia.
Qed.

Lemma m_nodes3_inverse : forall nx ny nz, 0 < nx -> 0 < ny -> 0 < nz ->
  (nx + 1) * (ny + 1) * (nz + 1) <= 2 ^ 63 ->
  mutually_inverse (box3 (nx + 1) (ny + 1) (nz + 1)) (below (m_number_of_nodes3 nx ny nz))
                   (m_node_index_at3 nx ny) (m_node_coordinates_at3 nx ny).
Proof.
  intros nx ny nz Hx Hy Hz Hf. pose proof fits_u.
  assert (0 < (nx + 1) * (ny + 1)) by nia.
  assert ((nx + 1) * (ny + 1) <= (nx + 1) * (ny + 1) * (nz + 1)) by nia.
  rewrite m_nodes3 by nia.
  apply mutually_inverse_ext with (3 := nodes3_inverse nx ny nz Hx Hy Hz); unfold below, number_of_nodes3.
  - intros a Ha Hq. apply m_node_index3. pose proof p63_pos. lia.
  - intros b Hb. apply m_node_coords3; lia.
Qed.

(** ** Corners *)

Ltac split_forall F :=
  repeat (apply Forall_cons_iff in F; let H := fresh in destruct F as [H F]).

Lemma m_corners2 : forall nx ny cell, 0 < nx -> 0 < ny -> (nx + 1) * (ny + 1) <= 2 ^ 63 ->
  below (nx * ny) cell -> m_node_indices_of2 nx cell = node_indices_of2 nx cell.
Proof.
  intros nx ny cell Hx Hy Hf Hc. pose proof fits_u. pose proof p63_pos.
  assert (Hc' := Hc). unfold below in Hc'.
  unfold m_node_indices_of2. rewrite m_cell_coords2 by nia.
  unfold node_indices_of2, node_indices_of_coords2.
  destruct (corners2 nx ny cell Hx Hy Hc) as (_ & _ & F & _).
  unfold node_indices_of2, node_indices_of_coords2, number_of_nodes2, below in F.
  split_forall F.
  rewrite !m_node_index2 by lia. reflexivity.
Qed.

Lemma m_corners3 : forall nx ny nz cell, 0 < nx -> 0 < ny -> 0 < nz ->
  (nx + 1) * (ny + 1) * (nz + 1) <= 2 ^ 63 ->
  below (nx * ny * nz) cell -> m_node_indices_of3 nx ny cell = node_indices_of3 nx ny cell.
Proof.
  intros nx ny nz cell Hx Hy Hz Hf Hc. pose proof fits_u. pose proof p63_pos.
  assert (Hc' := Hc). unfold below in Hc'.
  assert (0 < nx * ny) by nia. assert (0 < (nx + 1) * (ny + 1)) by nia.
  assert (nx * ny <= (nx + 1) * (ny + 1)) by nia.
  assert ((nx + 1) * (ny + 1) <= (nx + 1) * (ny + 1) * (nz + 1)) by nia.
  assert (nx * ny * nz <= (nx + 1) * (ny + 1) * (nz + 1)) by nia.
  unfold m_node_indices_of3. rewrite m_cell_coords3 by lia.
  unfold node_indices_of3, node_indices_of_coords3.
  destruct (corners3 nx ny nz cell Hx Hy Hz Hc) as (_ & _ & F & _).
  unfold node_indices_of3, node_indices_of_coords3, number_of_nodes3, below in F.
  split_forall F.
  rewrite !m_node_index3 by lia. reflexivity.
Qed.

(** ** Edges *)

Lemma m_edge2_exact : forall nx ny i, 0 < nx -> 0 < ny -> number_of_edges2 nx ny <= 2 ^ 63 ->
  below (number_of_edges2 nx ny) i -> m_edge2 nx i = edge2 nx i.
Proof.
  intros nx ny i Hx Hy Hf Hi. pose proof fits_u. pose proof p63_pos.
  destruct (edges2_enumeration nx ny Hx Hy) as (A & _ & _).
  destruct (A i Hi) as [[a b] [U E]]. unfold enc_edge2 in E. simpl in E, U.
  destruct U as (Ba & Bb & _).
  destruct (proj1 (nodes2_inverse nx ny Hx Hy) a Ba) as [Na _].
  destruct (proj1 (nodes2_inverse nx ny Hx Hy) b Bb) as [Nb _].
  unfold below, number_of_nodes2, number_of_edges2 in *.
  assert (C : (nx + 1) * (ny + 1) <= (2 * nx + 1) * ny + nx) by nia.
  assert (2 * nx + 1 <= (2 * nx + 1) * ny + nx) by nia.
  unfold m_edge2. unfold edge2 in E |- *.
  rewrite (uadd_exact (umul 2 nx) 1 (2 * nx + 1)) by (try mcong; lia).
  rewrite udiv_exact, umod_exact by lia.
  pose proof (Z.mod_pos_bound i (2 * nx + 1) ltac:(lia)).
  rewrite ultb_exact by lia.
  set (q := i / (2 * nx + 1)) in *. set (r := i mod (2 * nx + 1)) in *.
  destruct (r <? nx); injection E; intros E1 E0.
  - assert (Z0 : s64 (uadd (umul q (uadd nx 1)) r) =
                q * (nx + 1) + r) by (mexact; lia).
    rewrite Z0. reflexivity.
  - assert (Z0 : s64 (usub (uadd (umul q (uadd nx 1)) r) nx) =
                q * (nx + 1) + r - nx) by (mexact; lia).
    rewrite Z0. f_equal. mexact. lia.
Qed.

Lemma stride_le : forall s n z, 0 <= s -> 0 <= n -> n <= s -> 0 < z ->
  s + n <= (z + 1) * s + z * n /\ n * (z + 1) <= (z + 1) * s + z * n.
Proof. intros s n z Hs Hn Hns Hz. split; nia. Qed.

Lemma m_edge3_exact : forall nx ny nz i, 0 < nx -> 0 < ny -> 0 < nz ->
  number_of_edges3 nx ny nz <= 2 ^ 63 ->
  below (number_of_edges3 nx ny nz) i -> m_edge3 nx ny i = edge3 nx ny i.
Proof.
  intros nx ny nz i Hx Hy Hz Hf Hi. pose proof fits_u. pose proof p63_pos.
  destruct (edges3_enumeration nx ny nz Hx Hy Hz) as (A & _ & _).
  destruct (A i Hi) as [[a b] [U E]]. unfold enc_edge3 in E. simpl in E, U.
  destruct U as (Ba & Bb & _).
  destruct (proj1 (nodes3_inverse nx ny nz Hx Hy Hz) a Ba) as [Na _].
  destruct (proj1 (nodes3_inverse nx ny nz Hx Hy Hz) b Bb) as [Nb _].
  unfold below, number_of_nodes3, number_of_edges3 in *.
  set (per_row := 2 * nx + 1) in *.
  set (nodes := (nx + 1) * (ny + 1)) in *.
  assert (R : per_row <= per_row * ny + nx) by (unfold per_row; clear - Hx Hy; nia).
  assert (C : nodes <= per_row * ny + nx) by (unfold nodes, per_row; clear - Hx Hy; nia).
  assert (0 < nodes) by (unfold nodes; clear - Hx Hy; nia).
  assert (0 < per_row) by (unfold per_row; clear - Hx; lia).
  set (slice := per_row * ny + nx) in *.
  assert (0 <= slice) by lia.
  destruct (stride_le slice nodes nz) as [T N]; try lia.
  unfold m_edge3. unfold edge3 in E |- *. fold per_row nodes in E |- *. fold slice in E |- *.
  rewrite (uadd_exact (umul 2 nx) 1 per_row) by (try mcong; lia).
  rewrite (uadd_exact (umul per_row ny) nx slice) by (try mcong; lia).
  rewrite (umul_exact (uadd nx 1) (uadd ny 1) nodes) by (try mcong; lia).
  rewrite (uadd_exact slice nodes (slice + nodes)) by (try mcong; lia).
  rewrite (udiv_exact i), (umod_exact i) by lia.
  rewrite (usub_exact slice 1 (slice - 1)) by (try mcong; lia).
  pose proof (Z.mod_pos_bound i (slice + nodes) ltac:(lia)).
  rewrite ultb_exact by lia.
  set (ios := i mod (slice + nodes)) in *. set (sl := i / (slice + nodes)) in *.
  destruct (slice - 1 <? ios) eqn:B.
  - injection E; intros E1 E0.
    assert (Z0 : s64 (uadd (umul (umul sl (uadd nx 1)) (uadd ny 1)) (usub ios slice)) =
                sl * (nx + 1) * (ny + 1) + (ios - slice)) by (mexact; lia).
    rewrite Z0. f_equal. mexact. lia.
  - apply Z.ltb_ge in B.
    rewrite (udiv_exact ios), (umod_exact ios) by lia.
    pose proof (Z.mod_pos_bound ios per_row ltac:(lia)).
    rewrite ultb_exact by lia.
    destruct (ios mod per_row <? nx); injection E; intros E1 E0.
    + assert (Z0 : s64 (uadd (uadd (umul (umul sl (uadd nx 1)) (uadd ny 1))
                                   (umul (ios / per_row) (uadd nx 1))) (ios mod per_row)) =
                  sl * (nx + 1) * (ny + 1) + ios / per_row * (nx + 1) + ios mod per_row)
        by (mexact; lia).
      rewrite Z0. reflexivity.
    + assert (Z0 : s64 (usub (uadd (uadd (umul (umul sl (uadd nx 1)) (uadd ny 1))
                                   (umul (ios / per_row) (uadd nx 1))) (ios mod per_row)) nx) =
                  sl * (nx + 1) * (ny + 1) + ios / per_row * (nx + 1) + ios mod per_row - nx)
        by (mexact; lia).
      rewrite Z0. f_equal. mexact. lia.
Qed.

(** ** Faces *)

Lemma m_face_corner : forall nx ny nz sq, 0 < nx -> 0 < ny -> 0 < nz ->
  (nx + 1) * (ny + 1) * (nz + 1) <= 2 ^ 63 ->
  unit_square3 nx ny nz sq ->
  Forall (below ((nx + 1) * (ny + 1) * (nz + 1))) (map (node_index_at3 nx ny) sq).
Proof.
  intros nx ny nz sq Hx Hy Hz Hf (a & u & v & _ & _ & F).
  apply Forall_map_impl with (2 := F). intros b Hb.
  exact (proj1 (proj1 (nodes3_inverse nx ny nz Hx Hy Hz) b Hb)).
Qed.

Lemma node_coords3_inverse : forall nx ny n, 0 < nx -> 0 < ny ->
  node_index_at3 nx ny (node_coordinates_at3 nx ny n) = n.
Proof.
  intros nx ny n Hx Hy. unfold node_coordinates_at3, node_index_at3. ring.
Qed.

Lemma stride_lt : forall s n z, 0 < s -> 0 <= n -> 0 < z -> s + n < (z + 1) * s + z * n.
Proof. intros s n z Hs Hn Hz. nia. Qed.

Lemma m_face3_exact : forall nx ny nz i, 0 < nx -> 0 < ny -> 0 < nz ->
  number_of_faces3 nx ny nz <= 2 ^ 64 -> (nx + 1) * (ny + 1) * (nz + 1) <= 2 ^ 63 ->
  below (number_of_faces3 nx ny nz) i -> m_face3 nx ny i = face3 nx ny i.
Proof.
  intros nx ny nz i Hx Hy Hz Hf Hn Hi. pose proof fits_u. pose proof p63_pos.
  destruct (faces3_enumeration nx ny nz Hx Hy Hz) as (A & _ & _).
  destruct (A i Hi) as [sq [U E]]. unfold enc_face3 in E.
  pose proof (m_face_corner nx ny nz sq Hx Hy Hz Hn U) as F. rewrite <- E in F. clear E U A sq.
  unfold below, number_of_faces3 in *.
  set (xy := nx * ny) in *. set (btw := (nx + 1) * ny + nx * (ny + 1)) in *.
  assert (0 < xy) by (unfold xy; clear - Hx Hy; nia). assert (xy <= btw) by (unfold xy, btw; clear - Hx Hy; nia).
  assert (nx * (ny + 1) <= btw) by (unfold btw; clear - Hx Hy; nia).
  assert (0 < nx * (ny + 1)) by (clear - Hx Hy; nia).
  assert (nx <= nx * (ny + 1)) by (clear - Hx Hy; nia).
  assert (0 < (nx + 1) * (ny + 1)) by (clear - Hx Hy; nia).
  assert ((nx + 1) * (ny + 1) <= (nx + 1) * (ny + 1) * (nz + 1)) by (clear - Hx Hy Hz; nia).
  assert (T : xy + btw < (nz + 1) * xy + nz * btw) by (apply stride_lt; lia).
  unfold m_face3. unfold face3 in F |- *. fold xy in F |- *. fold btw in F |- *.
  rewrite (umul_exact nx ny xy) by (try mcong; unfold xy; lia).
  rewrite (uadd_exact (umul (uadd nx 1) ny) (umul nx (uadd ny 1)) btw) by (try mcong; lia).
  rewrite (uadd_exact xy btw (xy + btw)) by (try mcong; lia).
  rewrite (udiv_exact i), (umod_exact i) by lia.
  pose proof (Z.mod_pos_bound i (xy + btw) ltac:(lia)).
  set (ios := i mod (xy + btw)) in *. set (sl := i / (xy + btw)) in *.
  rewrite (ultb_exact ios) by lia.
  destruct (ios <? xy) eqn:B1.
  - apply Z.ltb_lt in B1.
    rewrite (udiv_exact ios), (umod_exact ios) by lia.
    set (n0 := sl * (nx + 1) * (ny + 1) + ios / nx * (nx + 1) + ios mod nx) in *.
    split_forall F.
    match goal with H : 0 <= node_index_at3 nx ny (node_coordinates_at3 nx ny n0) < _ |- _ =>
      pose proof H as N0; rewrite node_coords3_inverse in N0 by lia end.
    rewrite (s64_exact _ n0) by (try mcong; lia).
    rewrite m_node_coords3 by lia.
    rewrite !m_node_index3 by lia. reflexivity.
  - apply Z.ltb_ge in B1.
    rewrite (usub_exact ios xy (ios - xy)) by (try mcong; lia).
    rewrite (umul_exact nx (uadd ny 1) (nx * (ny + 1))) by (try mcong; lia).
    rewrite (ultb_exact (ios - xy)) by lia.
    destruct (ios - xy <? nx * (ny + 1)) eqn:B2.
    + apply Z.ltb_lt in B2.
      rewrite (udiv_exact (ios - xy)), (umod_exact (ios - xy)) by lia.
      set (n0 := sl * (nx + 1) * (ny + 1) + (ios - xy) / nx * (nx + 1) + (ios - xy) mod nx) in *.
      split_forall F.
      match goal with H : 0 <= node_index_at3 nx ny (node_coordinates_at3 nx ny n0) < _ |- _ =>
        pose proof H as N0; rewrite node_coords3_inverse in N0 by lia end.
      rewrite (s64_exact _ n0) by (try mcong; lia).
      rewrite m_node_coords3 by lia.
      rewrite !m_node_index3 by lia. reflexivity.
    + apply Z.ltb_ge in B2.
      set (n0 := sl * (nx + 1) * (ny + 1) + (ios - xy - nx * (ny + 1))) in *.
      split_forall F.
      match goal with H : 0 <= node_index_at3 nx ny (node_coordinates_at3 nx ny n0) < _ |- _ =>
        pose proof H as N0; rewrite node_coords3_inverse in N0 by lia end.
      rewrite (s64_exact _ n0) by (try mcong; lia).
      rewrite m_node_coords3 by lia.
      rewrite !m_node_index3 by lia. reflexivity.
Qed.

Lemma enumerates_ext : forall (A B : Type) n (enum enum' : Z -> B) (enc enc' : A -> B) (Item : A -> Prop),
  (forall i, below n i -> enum' i = enum i) -> (forall a, Item a -> enc' a = enc a) ->
  enumerates n enum enc Item -> enumerates n enum' enc' Item.
Proof.
  intros A B n enum enum' enc enc' Item H1 H2 (E1 & E2 & E3). split; [|split].
  - intros i Hi. destruct (E1 i Hi) as [a [Ia Ea]]. exists a. split; [assumption|].
    rewrite H1, H2 by assumption. assumption.
  - intros a Ia. destruct (E2 a Ia) as [i [Hi Ea]]. exists i. split; [assumption|].
    rewrite H1, H2 by assumption. assumption.
  - intros i j Hi Hj E. rewrite !H1 in E by assumption. auto.
Qed.
