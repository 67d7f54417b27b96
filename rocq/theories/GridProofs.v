(** Proofs about the grid numbering model. *)

From Coq Require Import ZArith List Lia Psatz.
From Verif Require Import GridModel GridSpec.
Import ListNotations.
Open Scope Z_scope.

(** * Mixed radix arithmetic *)

Lemma radix_div : forall n q r, 0 <= r < n -> (q * n + r) / n = q.
Proof.
  intros n q r H. symmetry. apply Z.div_unique with (r := r). left; exact H. ring.
Qed.

Lemma radix_mod : forall n q r, 0 <= r < n -> (q * n + r) mod n = r.
Proof.
  intros n q r H. symmetry. apply Z.mod_unique with (q := q). left; exact H. ring.
Qed.

Lemma div_bounds : forall x n m, 0 < n -> 0 <= x < n * m -> 0 <= x / n < m.
Proof.
  intros x n m Hn Hx. split.
  - apply Z.div_pos; lia.
  - apply Z.div_lt_upper_bound; lia.
Qed.

Lemma radix_eq : forall n q r q' r',
  0 <= r < n -> 0 <= r' < n -> q * n + r = q' * n + r' -> q = q' /\ r = r'.
Proof.
  intros n q r q' r' H H' E. split.
  - rewrite <- (radix_div n q r H), E. apply radix_div; assumption.
  - rewrite <- (radix_mod n q r H), E. apply radix_mod; assumption.
Qed.

(** decomposition of an index *)
Lemma radix_decomp : forall x n, 0 < n ->
  exists q r, 0 <= r < n /\ x = q * n + r /\ x / n = q /\ x mod n = r.
Proof.
  intros x n Hn. exists (x / n), (x mod n).
  pose proof (Z.mod_pos_bound x n Hn). pose proof (Z.div_mod x n ltac:(lia)).
  repeat split; lia.
Qed.

Lemma radix_q_bounds : forall n m q r, 0 <= r < n -> 0 <= q * n + r < n * m -> 0 <= q < m.
Proof. intros; nia. Qed.

(** * C01: numbering *)

Definition idx2 (n : Z) (c : Z * Z) := snd c * n + fst c.
Definition crd2 (n : Z) (x : Z) : Z * Z := (x - (x / n) * n, x / n).

Lemma idx2_inverse : forall n m, 0 < n -> 0 < m ->
  mutually_inverse (box2 n m) (below (n * m)) (idx2 n) (crd2 n).
Proof.
  intros n m Hn Hm. unfold mutually_inverse, box2, below, idx2, crd2. split.
  - intros [i j] [Hi Hj]; simpl. split; [nia|].
    rewrite radix_div by assumption. f_equal; ring.
  - intros x Hx. destruct (radix_decomp x n Hn) as (q & r & Hr & E & Eq & _). simpl.
    rewrite Eq. assert (0 <= q < m) by (apply (radix_q_bounds n m q r Hr); lia).
    split; [split; lia | lia].
Qed.

Lemma cells2_inverse : forall nx ny, 0 < nx -> 0 < ny ->
  mutually_inverse (box2 nx ny) (below (number_of_cells2 nx ny))
                   (cell_index_at2 nx) (cell_coordinates_at2 nx).
Proof.
  intros nx ny Hx Hy. destruct (idx2_inverse nx ny Hx Hy) as [A B].
  split.
  - intros [i j] H. exact (A (i, j) H).
  - intros x H. exact (B x H).
Qed.

Lemma nodes2_inverse : forall nx ny, 0 < nx -> 0 < ny ->
  mutually_inverse (box2 (nx + 1) (ny + 1)) (below (number_of_nodes2 nx ny))
                   (node_index_at2 nx) (node_coordinates_at2 nx).
Proof.
  intros nx ny Hx Hy. destruct (idx2_inverse (nx + 1) (ny + 1) ltac:(lia) ltac:(lia)) as [A B].
  split.
  - intros [i j] H. exact (A (i, j) H).
  - intros x H. exact (B x H).
Qed.

Lemma nodes1_inverse : forall nx, 0 < nx ->
  mutually_inverse (below (nx + 1)) (below (number_of_nodes1 nx)) node_index_at1 node_coordinates_at1.
Proof. intros; split; unfold below, number_of_nodes1, node_index_at1, node_coordinates_at1; intros; lia. Qed.

Lemma cells1_inverse : forall nx, 0 < nx ->
  mutually_inverse (below nx) (below (number_of_cells1 nx)) cell_index_at1 cell_coordinates_at1.
Proof. intros; split; unfold below, number_of_cells1, cell_index_at1, cell_coordinates_at1; intros; lia. Qed.

Lemma idx3_decomp : forall n m x, 0 < n -> 0 < m ->
  exists i j k, 0 <= i < n /\ 0 <= j < m /\ x = k * m * n + j * n + i /\
                x / (n * m) = k /\ (x - k * n * m) / n = j.
Proof.
  intros n m x Hn Hm.
  destruct (radix_decomp x (n * m) ltac:(nia)) as (k & r & Hr & E & Ek & _).
  destruct (radix_decomp r n Hn) as (j & i & Hi & E' & Ej & _).
  exists i, j, k. split; [exact Hi|].
  assert (0 <= j < m) by (apply (radix_q_bounds n m j i Hi); lia).
  split; [assumption|]. split; [subst; ring|]. split; [assumption|].
  replace (x - k * n * m) with r by (subst; ring). exact Ej.
Qed.

Lemma idx3_encode : forall n m i j k, 0 <= i < n -> 0 <= j < m ->
  (k * m * n + j * n + i) / (n * m) = k /\
  (k * m * n + j * n + i - k * n * m) / n = j.
Proof.
  intros n m i j k Hi Hj. split.
  - replace (k * m * n + j * n + i) with (k * (n * m) + (j * n + i)) by ring.
    apply radix_div. nia.
  - replace (k * m * n + j * n + i - k * n * m) with (j * n + i) by ring.
    apply radix_div. assumption.
Qed.

Definition idx3 (n m : Z) (c : Z * Z * Z) : Z :=
  let '(i, j, k) := c in k * m * n + j * n + i.
Definition crd3 (n m x : Z) : Z * Z * Z :=
  let k := x / (n * m) in
  let j := (x - (k * n * m)) / n in
  let i := x - ((k * n * m) + (j * n)) in
  (i, j, k).

Lemma idx3_inverse : forall n m p, 0 < n -> 0 < m -> 0 < p ->
  mutually_inverse (box3 n m p) (below (n * m * p)) (idx3 n m) (crd3 n m).
Proof.
  intros n m p Hn Hm Hp. unfold mutually_inverse, box3, below, idx3, crd3. split.
  - intros [[i j] k] (Hi & Hj & Hk).
    destruct (idx3_encode n m i j k Hi Hj) as [Ek Ej]. split.
    + split; [nia|].
      assert (j * n + i < n * m) by nia.
      assert ((k + 1) * (n * m) <= p * (n * m)) by nia. nia.
    + rewrite Ek, Ej. f_equal. f_equal. ring.
  - intros x Hx. destruct (idx3_decomp n m x Hn Hm) as (i & j & k & Hi & Hj & E & Ek & Ej).
    rewrite Ek, Ej.
    assert (0 <= k < p).
    { assert (0 <= x / (n * m) < p) by (apply div_bounds; nia). lia. }
    replace (x - (k * n * m + j * n)) with i by (rewrite E; ring).
    repeat split; try lia.
Qed.

Lemma cells3_inverse : forall nx ny nz, 0 < nx -> 0 < ny -> 0 < nz ->
  mutually_inverse (box3 nx ny nz) (below (number_of_cells3 nx ny nz))
                   (cell_index_at3 nx ny) (cell_coordinates_at3 nx ny).
Proof. exact idx3_inverse. Qed.

Lemma nodes3_inverse : forall nx ny nz, 0 < nx -> 0 < ny -> 0 < nz ->
  mutually_inverse (box3 (nx + 1) (ny + 1) (nz + 1)) (below (number_of_nodes3 nx ny nz))
                   (node_index_at3 nx ny) (node_coordinates_at3 nx ny).
Proof.
  intros nx ny nz Hx Hy Hz.
  exact (idx3_inverse (nx + 1) (ny + 1) (nz + 1) ltac:(lia) ltac:(lia) ltac:(lia)).
Qed.

(** * C02: corners of a cell *)

Lemma corners1 : forall nx cell, 0 < nx -> below (number_of_cells1 nx) cell ->
  node_indices_of1 cell = map node_index_at1 [cell_coordinates_at1 cell; cell_coordinates_at1 cell + 1]
  /\ Forall (below (number_of_nodes1 nx)) (node_indices_of1 cell) /\ NoDup (node_indices_of1 cell).
Proof.
  unfold below, number_of_cells1, number_of_nodes1, node_indices_of1.
  intros nx cell Hx Hc. split; [reflexivity|]. split.
  - repeat constructor; lia.
  - repeat constructor; simpl; lia.
Qed.

Lemma NoDup_map_inj : forall (A B : Type) (f : A -> B) (P : A -> Prop) l,
  (forall a b, P a -> P b -> f a = f b -> a = b) -> Forall P l -> NoDup l -> NoDup (map f l).
Proof.
  induction l as [|a l IH]; simpl; intros Hinj HP Hnd; [constructor|].
  inversion HP; subst. inversion Hnd; subst. constructor.
  - intro Hin. apply in_map_iff in Hin. destruct Hin as (b & Hb & Hbl).
    rewrite Forall_forall in H2. specialize (Hinj b a (H2 b Hbl) H1 Hb). subst. contradiction.
  - apply IH; auto.
Qed.

Lemma inverse_injective : forall (A B : Type) (P : A -> Prop) (Q : B -> Prop) (f : A -> B) (g : B -> A),
  mutually_inverse P Q f g -> forall a b, P a -> P b -> f a = f b -> a = b.
Proof.
  intros A B P Q f g [H _] a b Ha Hb E.
  destruct (H a Ha) as [_ Ea]. destruct (H b Hb) as [_ Eb]. congruence.
Qed.

Lemma Forall_map_impl : forall (A B : Type) (f : A -> B) (P : A -> Prop) (Q : B -> Prop) l,
  (forall a, P a -> Q (f a)) -> Forall P l -> Forall Q (map f l).
Proof. intros. induction H0; simpl; constructor; auto. Qed.

Lemma corner2_shift_box : forall nx ny c, box2 nx ny c ->
  Forall (box2 (nx + 1) (ny + 1)) (map (shift2 c) corner2).
Proof.
  intros nx ny [i j] [Hi Hj]. unfold below in *.
  repeat constructor; unfold shift2; simpl; lia.
Qed.

Lemma corner3_shift_box : forall nx ny nz c, box3 nx ny nz c ->
  Forall (box3 (nx + 1) (ny + 1) (nz + 1)) (map (shift3 c) corner3).
Proof.
  intros nx ny nz [[i j] k] (Hi & Hj & Hk). unfold below in *.
  repeat constructor; unfold shift3; simpl; lia.
Qed.

Lemma corner2_nodup : forall c, NoDup (map (shift2 c) corner2).
Proof.
  intros [i j]. unfold shift2, corner2; simpl.
  repeat constructor; simpl; intuition (try congruence);
    repeat match goal with H : (_, _) = (_, _) |- _ => injection H; clear H; intros end; lia.
Qed.

Lemma corner3_nodup : forall c, NoDup (map (shift3 c) corner3).
Proof.
  intros [[i j] k]. unfold shift3, corner3; simpl.
  repeat constructor; simpl;
   intuition; repeat match goal with H : (_, _) = (_, _) |- _ => injection H; clear H; intros end; lia.
Qed.

Lemma node_indices_of2_map : forall nx c,
  node_indices_of_coords2 nx c = map (node_index_at2 nx) (map (shift2 c) corner2).
Proof.
  intros nx [i j]. unfold node_indices_of_coords2, corner2, shift2, add2, e2_1, e2_2, node_index_at2. simpl.
  repeat (apply (f_equal2 (@cons Z)); [ring|]). reflexivity.
Qed.

Lemma node_indices_of3_map : forall nx ny c,
  node_indices_of_coords3 nx ny c = map (node_index_at3 nx ny) (map (shift3 c) corner3).
Proof.
  intros nx ny [[i j] k]. unfold node_indices_of_coords3, corner3, shift3, add3, e3_1, e3_2, e3_3, node_index_at3. simpl.
  repeat (apply (f_equal2 (@cons Z)); [ring|]). reflexivity.
Qed.

Lemma corners2 : forall nx ny cell, 0 < nx -> 0 < ny -> below (number_of_cells2 nx ny) cell ->
  node_indices_of2 nx cell =
    map (node_index_at2 nx) (map (shift2 (cell_coordinates_at2 nx cell)) corner2)
  /\ Forall (box2 (nx + 1) (ny + 1)) (map (shift2 (cell_coordinates_at2 nx cell)) corner2)
  /\ Forall (below (number_of_nodes2 nx ny)) (node_indices_of2 nx cell)
  /\ NoDup (node_indices_of2 nx cell).
Proof.
  intros nx ny cell Hx Hy Hc.
  destruct (cells2_inverse nx ny Hx Hy) as [_ Hinv]. destruct (Hinv cell Hc) as [Hbox _].
  pose proof (corner2_shift_box nx ny _ Hbox) as HF.
  unfold node_indices_of2. rewrite node_indices_of2_map.
  split; [reflexivity|]. split; [exact HF|]. split.
  - eapply Forall_map_impl; [|exact HF].
    intros a Ha. destruct (nodes2_inverse nx ny Hx Hy) as [H _]. apply H; assumption.
  - eapply NoDup_map_inj; [|exact HF|apply corner2_nodup].
    exact (inverse_injective _ _ _ _ _ _ (nodes2_inverse nx ny Hx Hy)).
Qed.

Lemma corners3 : forall nx ny nz cell, 0 < nx -> 0 < ny -> 0 < nz ->
  below (number_of_cells3 nx ny nz) cell ->
  node_indices_of3 nx ny cell =
    map (node_index_at3 nx ny) (map (shift3 (cell_coordinates_at3 nx ny cell)) corner3)
  /\ Forall (box3 (nx + 1) (ny + 1) (nz + 1)) (map (shift3 (cell_coordinates_at3 nx ny cell)) corner3)
  /\ Forall (below (number_of_nodes3 nx ny nz)) (node_indices_of3 nx ny cell)
  /\ NoDup (node_indices_of3 nx ny cell).
Proof.
  intros nx ny nz cell Hx Hy Hz Hc.
  destruct (cells3_inverse nx ny nz Hx Hy Hz) as [_ Hinv]. destruct (Hinv cell Hc) as [Hbox _].
  pose proof (corner3_shift_box nx ny nz _ Hbox) as HF.
  unfold node_indices_of3. rewrite node_indices_of3_map.
  split; [reflexivity|]. split; [exact HF|]. split.
  - eapply Forall_map_impl; [|exact HF].
    intros a Ha. destruct (nodes3_inverse nx ny nz Hx Hy Hz) as [H _]. apply H; assumption.
  - eapply NoDup_map_inj; [|exact HF|apply corner3_nodup].
    exact (inverse_injective _ _ _ _ _ _ (nodes3_inverse nx ny nz Hx Hy Hz)).
Qed.

(** * C03: conformity *)

Lemma nth_error_map_inv : forall (A B : Type) (f : A -> B) l n b,
  nth_error (map f l) n = Some b -> exists a, nth_error l n = Some a /\ f a = b.
Proof.
  intros A B f l. induction l as [|a l IH]; intros [|n] b H; simpl in *; try discriminate.
  - injection H; intros; subst. exists a; auto.
  - apply IH; assumption.
Qed.

Lemma conforming2 : forall nx ny, 0 < nx -> 0 < ny ->
  forall c c' k k' v v' n n',
  below (number_of_cells2 nx ny) c -> below (number_of_cells2 nx ny) c' ->
  nth_error corner2 k = Some v -> nth_error corner2 k' = Some v' ->
  nth_error (node_indices_of2 nx c) k = Some n -> nth_error (node_indices_of2 nx c') k' = Some n' ->
  (n = n' <-> shift2 (cell_coordinates_at2 nx c) v = shift2 (cell_coordinates_at2 nx c') v').
Proof.
  intros nx ny Hx Hy c c' k k' v v' n n' Hc Hc' Hv Hv' Hn Hn'.
  destruct (corners2 nx ny c Hx Hy Hc) as (E & HF & _ & _).
  destruct (corners2 nx ny c' Hx Hy Hc') as (E' & HF' & _ & _).
  rewrite E in Hn. rewrite E' in Hn'.
  apply nth_error_map_inv in Hn. destruct Hn as (a & Ha & <-).
  apply nth_error_map_inv in Hn'. destruct Hn' as (a' & Ha' & <-).
  pose proof (nth_error_In _ _ Ha) as Ia. pose proof (nth_error_In _ _ Ha') as Ia'.
  rewrite (map_nth_error _ _ _ Hv) in Ha. rewrite (map_nth_error _ _ _ Hv') in Ha'.
  injection Ha; intros; subst a. injection Ha'; intros; subst a'.
  rewrite Forall_forall in HF, HF'. split; [|congruence].
  apply (inverse_injective _ _ _ _ _ _ (nodes2_inverse nx ny Hx Hy)); auto.
Qed.

Lemma conforming3 : forall nx ny nz, 0 < nx -> 0 < ny -> 0 < nz ->
  forall c c' k k' v v' n n',
  below (number_of_cells3 nx ny nz) c -> below (number_of_cells3 nx ny nz) c' ->
  nth_error corner3 k = Some v -> nth_error corner3 k' = Some v' ->
  nth_error (node_indices_of3 nx ny c) k = Some n -> nth_error (node_indices_of3 nx ny c') k' = Some n' ->
  (n = n' <-> shift3 (cell_coordinates_at3 nx ny c) v = shift3 (cell_coordinates_at3 nx ny c') v').
Proof.
  intros nx ny nz Hx Hy Hz c c' k k' v v' n n' Hc Hc' Hv Hv' Hn Hn'.
  destruct (corners3 nx ny nz c Hx Hy Hz Hc) as (E & HF & _ & _).
  destruct (corners3 nx ny nz c' Hx Hy Hz Hc') as (E' & HF' & _ & _).
  rewrite E in Hn. rewrite E' in Hn'.
  apply nth_error_map_inv in Hn. destruct Hn as (a & Ha & <-).
  apply nth_error_map_inv in Hn'. destruct Hn' as (a' & Ha' & <-).
  pose proof (nth_error_In _ _ Ha) as Ia. pose proof (nth_error_In _ _ Ha') as Ia'.
  rewrite (map_nth_error _ _ _ Hv) in Ha. rewrite (map_nth_error _ _ _ Hv') in Ha'.
  injection Ha; intros; subst a. injection Ha'; intros; subst a'.
  rewrite Forall_forall in HF, HF'. split; [|congruence].
  apply (inverse_injective _ _ _ _ _ _ (nodes3_inverse nx ny nz Hx Hy Hz)); auto.
Qed.

Lemma nodes1_shared : forall nx c c' n, 0 < nx ->
  below (number_of_cells1 nx) c -> below (number_of_cells1 nx) c' ->
  In n (node_indices_of1 c) -> In n (node_indices_of1 c') ->
  c = c' \/ (c' = c + 1 /\ n = c + 1) \/ (c = c' + 1 /\ n = c' + 1).
Proof. unfold node_indices_of1; simpl; intros; lia. Qed.

(** * C04: edges *)

Definition enc_edge2 (nx : Z) (e : (Z * Z) * (Z * Z)) : Z * Z :=
  (node_index_at2 nx (fst e), node_index_at2 nx (snd e)).

Lemma edge2_x : forall nx row r, 0 < nx -> 0 <= r < nx ->
  edge2 nx (row * (2 * nx + 1) + r) =
    (node_index_at2 nx (r, row), node_index_at2 nx (r + 1, row)).
Proof.
  intros nx row r Hx Hr. unfold edge2. rewrite radix_div, radix_mod by lia.
  destruct (r <? nx) eqn:E; [|apply Z.ltb_ge in E; lia].
  unfold node_index_at2. f_equal; ring.
Qed.

Lemma edge2_y : forall nx row r, 0 < nx -> 0 <= r <= nx ->
  edge2 nx (row * (2 * nx + 1) + (nx + r)) =
    (node_index_at2 nx (r, row), node_index_at2 nx (r, row + 1)).
Proof.
  intros nx row r Hx Hr. unfold edge2. rewrite radix_div, radix_mod by lia.
  destruct (nx + r <? nx) eqn:E; [apply Z.ltb_lt in E; lia|].
  unfold node_index_at2. f_equal; ring.
Qed.

Lemma edge2_cases : forall nx ny i, 0 < nx -> 0 < ny -> below (number_of_edges2 nx ny) i ->
  (exists row r, i = row * (2 * nx + 1) + r /\ 0 <= r < nx /\ 0 <= row <= ny) \/
  (exists row r, i = row * (2 * nx + 1) + (nx + r) /\ 0 <= r <= nx /\ 0 <= row < ny).
Proof.
  intros nx ny i Hx Hy Hi. unfold below, number_of_edges2 in Hi.
  destruct (radix_decomp i (2 * nx + 1) ltac:(lia)) as (q & r & Hr & E & _ & _).
  assert (0 <= q) by nia.
  destruct (Z_lt_ge_dec r nx).
  - left. exists q, r. repeat split; try lia. nia.
  - right. exists q, (r - nx). repeat split; try lia. nia.
Qed.

Lemma edges2_enumeration : forall nx ny, 0 < nx -> 0 < ny ->
  enumerates (number_of_edges2 nx ny) (edge2 nx) (enc_edge2 nx)
             (fun e => unit_edge2 nx ny (fst e) (snd e)).
Proof.
  intros nx ny Hx Hy. split; [|split].
  - intros i Hi. destruct (edge2_cases nx ny i Hx Hy Hi) as [(row & r & E & Hr & Hrow)|(row & r & E & Hr & Hrow)]; subst i.
    + exists ((r, row), (r + 1, row)). rewrite edge2_x by lia. split; [|reflexivity].
      unfold unit_edge2, box2, below, shift2; simpl. repeat split; try lia. left; f_equal; lia.
    + exists ((r, row), (r, row + 1)). rewrite edge2_y by lia. split; [|reflexivity].
      unfold unit_edge2, box2, below, shift2; simpl. repeat split; try lia. right; f_equal; lia.
  - intros [[i j] [i' j']] H. unfold unit_edge2, box2, below, shift2 in H; simpl in H.
    destruct H as ((Hi & Hj) & (Hi' & Hj') & [E|E]); injection E; intros; subst; clear E.
    + exists (j * (2 * nx + 1) + i). unfold below, number_of_edges2. split; [nia|].
      rewrite edge2_x by lia. unfold enc_edge2; simpl. f_equal; ring.
    + exists (j * (2 * nx + 1) + (nx + i)). unfold below, number_of_edges2. split; [nia|].
      rewrite edge2_y by lia. unfold enc_edge2; simpl. f_equal; ring.
  - intros a b Ha Hb E.
    assert (Hinj := inverse_injective _ _ _ _ _ _ (nodes2_inverse nx ny Hx Hy)).
    destruct (edge2_cases nx ny a Hx Hy Ha) as [(row & r & -> & Hr & Hrow)|(row & r & -> & Hr & Hrow)];
    destruct (edge2_cases nx ny b Hx Hy Hb) as [(row' & r' & -> & Hr' & Hrow')|(row' & r' & -> & Hr' & Hrow')];
    first [rewrite (edge2_x nx row r) in E by lia | rewrite (edge2_y nx row r) in E by lia];
    first [rewrite (edge2_x nx row' r') in E by lia | rewrite (edge2_y nx row' r') in E by lia];
    pose proof (f_equal fst E) as E1; pose proof (f_equal snd E) as E2; cbn [fst snd] in E1, E2; clear E;
    (apply Hinj in E1; [|unfold box2, below; lia|unfold box2, below; lia]);
    (apply Hinj in E2; [|unfold box2, below; lia|unfold box2, below; lia]);
    inversion E1; inversion E2; subst; try lia.
Qed.

(** ** 3D edges *)

Definition enc_edge3 (nx ny : Z) (e : (Z * Z * Z) * (Z * Z * Z)) : Z * Z :=
  (node_index_at3 nx ny (fst e), node_index_at3 nx ny (snd e)).

Definition eslice (nx ny : Z) : Z := (2 * nx + 1) * ny + nx.
Definition estride (nx ny : Z) : Z := eslice nx ny + (nx + 1) * (ny + 1).

Lemma edge3_in_slice : forall nx ny k s, 0 < nx -> 0 < ny -> 0 <= s < eslice nx ny ->
  edge3 nx ny (k * estride nx ny + s) =
  let (a, b) := edge2 nx s in (k * (nx + 1) * (ny + 1) + a, k * (nx + 1) * (ny + 1) + b).
Proof.
  intros nx ny k s Hx Hy Hs. unfold edge3.
  fold (eslice nx ny). fold (estride nx ny).
  assert (0 <= s < estride nx ny) by (unfold estride; nia).
  rewrite radix_div, radix_mod by assumption.
  destruct (eslice nx ny - 1 <? s) eqn:E; [apply Z.ltb_lt in E; lia|].
  unfold edge2. destruct (s mod (2 * nx + 1) <? nx); f_equal; ring.
Qed.

Lemma edge3_z : forall nx ny k i j, 0 < nx -> 0 < ny -> 0 <= i <= nx -> 0 <= j <= ny ->
  edge3 nx ny (k * estride nx ny + (eslice nx ny + (j * (nx + 1) + i))) =
  (node_index_at3 nx ny (i, j, k), node_index_at3 nx ny (i, j, k + 1)).
Proof.
  intros nx ny k i j Hx Hy Hi Hj. unfold edge3.
  fold (eslice nx ny). fold (estride nx ny).
  assert (0 <= eslice nx ny) by (unfold eslice; nia).
  assert (0 <= eslice nx ny + (j * (nx + 1) + i) < estride nx ny) by (unfold estride; nia).
  rewrite radix_div, radix_mod by assumption.
  destruct (eslice nx ny - 1 <? eslice nx ny + (j * (nx + 1) + i)) eqn:E; [|apply Z.ltb_ge in E; nia].
  unfold node_index_at3. f_equal; ring.
Qed.

Lemma edge3_x : forall nx ny i j k, 0 < nx -> 0 < ny -> 0 <= i < nx -> 0 <= j <= ny ->
  edge3 nx ny (k * estride nx ny + (j * (2 * nx + 1) + i)) =
  (node_index_at3 nx ny (i, j, k), node_index_at3 nx ny (i + 1, j, k)).
Proof.
  intros. rewrite edge3_in_slice by (try lia; unfold eslice; nia).
  rewrite edge2_x by lia. unfold node_index_at2, node_index_at3. f_equal; ring.
Qed.

Lemma edge3_y : forall nx ny i j k, 0 < nx -> 0 < ny -> 0 <= i <= nx -> 0 <= j < ny ->
  edge3 nx ny (k * estride nx ny + (j * (2 * nx + 1) + (nx + i))) =
  (node_index_at3 nx ny (i, j, k), node_index_at3 nx ny (i, j + 1, k)).
Proof.
  intros. rewrite edge3_in_slice by (try lia; unfold eslice; nia).
  rewrite edge2_y by lia. unfold node_index_at2, node_index_at3. f_equal; ring.
Qed.

Lemma edge3_cases : forall nx ny nz x, 0 < nx -> 0 < ny -> 0 < nz ->
  below (number_of_edges3 nx ny nz) x ->
  (exists i j k, x = k * estride nx ny + (j * (2 * nx + 1) + i) /\ 0 <= i < nx /\ 0 <= j <= ny /\ 0 <= k <= nz) \/
  (exists i j k, x = k * estride nx ny + (j * (2 * nx + 1) + (nx + i)) /\ 0 <= i <= nx /\ 0 <= j < ny /\ 0 <= k <= nz) \/
  (exists i j k, x = k * estride nx ny + (eslice nx ny + (j * (nx + 1) + i)) /\ 0 <= i <= nx /\ 0 <= j <= ny /\ 0 <= k < nz).
Proof.
  intros nx ny nz x Hx Hy Hz Hb. unfold below in Hb.
  assert (Hs : 0 < eslice nx ny) by (unfold eslice; nia).
  assert (Hst : 0 < estride nx ny) by (unfold estride; nia).
  assert (HN : number_of_edges3 nx ny nz = nz * estride nx ny + eslice nx ny)
    by (unfold number_of_edges3, estride, eslice; ring).
  destruct (radix_decomp x (estride nx ny) Hst) as (k & s & Hsb & E & Ek & _).
  assert (0 <= k) by (subst k; apply Z.div_pos; lia).
  destruct (Z_lt_ge_dec s (eslice nx ny)) as [Hlt|Hge].
  - assert (eslice nx ny < estride nx ny) by (unfold estride; nia).
    assert (k <= nz) by nia.
    destruct (edge2_cases nx ny s Hx Hy) as [(row & r & Er & Hr & Hrow)|(row & r & Er & Hr & Hrow)].
    { unfold below, number_of_edges2. fold (eslice nx ny). lia. }
    + left. exists r, row, k. subst. repeat split; lia.
    + right; left. exists r, row, k. subst. repeat split; lia.
  - assert (k < nz) by nia.
    right; right.
    destruct (radix_decomp (s - eslice nx ny) (nx + 1) ltac:(lia)) as (j & i & Hi & E' & _ & _).
    assert (0 <= j < ny + 1).
    { apply (radix_q_bounds (nx + 1) (ny + 1) j i Hi). unfold estride in Hsb. lia. }
    exists i, j, k. repeat split; try lia.
Qed.

Lemma edges3_enumeration : forall nx ny nz, 0 < nx -> 0 < ny -> 0 < nz ->
  enumerates (number_of_edges3 nx ny nz) (edge3 nx ny) (enc_edge3 nx ny)
             (fun e => unit_edge3 nx ny nz (fst e) (snd e)).
Proof.
  intros nx ny nz Hx Hy Hz.
  assert (Hs : 0 < eslice nx ny) by (unfold eslice; nia).
  assert (HN : number_of_edges3 nx ny nz = nz * estride nx ny + eslice nx ny)
    by (unfold number_of_edges3, estride, eslice; ring).
  split; [|split].
  - intros x Hb.
    destruct (edge3_cases nx ny nz x Hx Hy Hz Hb) as [(i & j & k & -> & Hi & Hj & Hk)|[(i & j & k & -> & Hi & Hj & Hk)|(i & j & k & -> & Hi & Hj & Hk)]].
    + exists ((i, j, k), (i + 1, j, k)). rewrite edge3_x by lia. split; [|reflexivity].
      unfold unit_edge3, box3, below, shift3; simpl. repeat split; try lia. left; repeat f_equal; lia.
    + exists ((i, j, k), (i, j + 1, k)). rewrite edge3_y by lia. split; [|reflexivity].
      unfold unit_edge3, box3, below, shift3; simpl. repeat split; try lia. right; left; repeat f_equal; lia.
    + exists ((i, j, k), (i, j, k + 1)). rewrite edge3_z by lia. split; [|reflexivity].
      unfold unit_edge3, box3, below, shift3; simpl. repeat split; try lia. right; right; repeat f_equal; lia.
  - intros [[[i j] k] [[i' j'] k']] H. unfold unit_edge3, box3, below, shift3 in H; simpl in H.
    destruct H as ((Hi & Hj & Hk) & (Hi' & Hj' & Hk') & [E|[E|E]]); injection E; intros; subst; clear E; unfold below; rewrite HN.
    + exists (k * estride nx ny + (j * (2 * nx + 1) + i)). split.
      { assert (j * (2 * nx + 1) + i < eslice nx ny) by (unfold eslice; nia).
        assert (0 < estride nx ny) by (unfold estride; nia). nia. }
      rewrite edge3_x by lia. unfold enc_edge3; cbn [fst snd]. rewrite ?Z.add_0_r. reflexivity.
    + exists (k * estride nx ny + (j * (2 * nx + 1) + (nx + i))). split.
      { assert (j * (2 * nx + 1) + (nx + i) < eslice nx ny) by (unfold eslice; nia).
        assert (0 < estride nx ny) by (unfold estride; nia). nia. }
      rewrite edge3_y by lia. unfold enc_edge3; cbn [fst snd]. rewrite ?Z.add_0_r. reflexivity.
    + exists (k * estride nx ny + (eslice nx ny + (j * (nx + 1) + i))). split.
      { assert (eslice nx ny + (j * (nx + 1) + i) < estride nx ny) by (unfold estride; nia).
        assert (0 < estride nx ny) by (unfold estride; nia). nia. }
      rewrite edge3_z by lia. unfold enc_edge3; cbn [fst snd]. rewrite ?Z.add_0_r. reflexivity.
  - intros a b Ha Hb E.
    assert (Hinj := inverse_injective _ _ _ _ _ _ (nodes3_inverse nx ny nz Hx Hy Hz)).
    destruct (edge3_cases nx ny nz a Hx Hy Hz Ha) as [(i & j & k & -> & Hi & Hj & Hk)|[(i & j & k & -> & Hi & Hj & Hk)|(i & j & k & -> & Hi & Hj & Hk)]];
    destruct (edge3_cases nx ny nz b Hx Hy Hz Hb) as [(i' & j' & k' & -> & Hi' & Hj' & Hk')|[(i' & j' & k' & -> & Hi' & Hj' & Hk')|(i' & j' & k' & -> & Hi' & Hj' & Hk')]];
    first [rewrite (edge3_x nx ny i j k) in E by lia | rewrite (edge3_y nx ny i j k) in E by lia | rewrite (edge3_z nx ny k i j) in E by lia];
    first [rewrite (edge3_x nx ny i' j' k') in E by lia | rewrite (edge3_y nx ny i' j' k') in E by lia | rewrite (edge3_z nx ny k' i' j') in E by lia];
    pose proof (f_equal fst E) as E1; pose proof (f_equal snd E) as E2; cbn [fst snd] in E1, E2; clear E;
    (apply Hinj in E1; [|unfold box3, below; lia|unfold box3, below; lia]);
    (apply Hinj in E2; [|unfold box3, below; lia|unfold box3, below; lia]);
    inversion E1; inversion E2; subst; try lia.
Qed.

(** * C05: faces *)

Definition enc_face3 (nx ny : Z) (sq : list (Z * Z * Z)) : list Z := map (node_index_at3 nx ny) sq.

Definition fslice (nx ny : Z) : Z := nx * ny.
Definition fbetween (nx ny : Z) : Z := (nx + 1) * ny + nx * (ny + 1).
Definition fstride (nx ny : Z) : Z := fslice nx ny + fbetween nx ny.

Definition square (a u v : Z * Z * Z) : list (Z * Z * Z) :=
  [a; shift3 a u; shift3 (shift3 a u) v; shift3 a v].

Lemma node_coordinates_of_corner : forall nx ny i j k, 0 < nx -> 0 < ny ->
  0 <= i <= nx -> 0 <= j <= ny ->
  node_coordinates_at3 nx ny (k * (nx + 1) * (ny + 1) + j * (nx + 1) + i) = (i, j, k).
Proof.
  intros nx ny i j k Hx Hy Hi Hj.
  destruct (idx3_encode (nx + 1) (ny + 1) i j k ltac:(lia) ltac:(lia)) as [Ek Ej].
  replace (k * (nx + 1) * (ny + 1) + j * (nx + 1) + i) with (k * (ny + 1) * (nx + 1) + j * (nx + 1) + i) by ring.
  unfold node_coordinates_at3. rewrite Ek, Ej. f_equal. f_equal. ring.
Qed.

Lemma face3_xy : forall nx ny i j k, 0 < nx -> 0 < ny -> 0 <= i < nx -> 0 <= j < ny ->
  face3 nx ny (k * fstride nx ny + (j * nx + i)) =
  enc_face3 nx ny (square (i, j, k) (1,0,0) (0,1,0)).
Proof.
  intros nx ny i j k Hx Hy Hi Hj. unfold face3.
  fold (fslice nx ny) (fbetween nx ny) (fstride nx ny).
  assert (0 <= j * nx + i < fslice nx ny) by (unfold fslice; nia).
  assert (0 <= fbetween nx ny) by (unfold fbetween; nia).
  assert (HB : 0 <= j * nx + i < fstride nx ny) by (unfold fstride; lia).
  rewrite (radix_mod _ _ _ HB), (radix_div _ _ _ HB).
  destruct (j * nx + i <? fslice nx ny) eqn:E; [|apply Z.ltb_ge in E; lia].
  rewrite radix_div, radix_mod by lia. rewrite node_coordinates_of_corner by lia.
  unfold enc_face3, square, shift3, add3, e3_1, e3_2; cbn [map fst snd]. reflexivity.
Qed.

Lemma face3_xz : forall nx ny i j k, 0 < nx -> 0 < ny -> 0 <= i < nx -> 0 <= j <= ny ->
  face3 nx ny (k * fstride nx ny + (fslice nx ny + (j * nx + i))) =
  enc_face3 nx ny (square (i, j, k) (1,0,0) (0,0,1)).
Proof.
  intros nx ny i j k Hx Hy Hi Hj. unfold face3.
  fold (fslice nx ny) (fbetween nx ny) (fstride nx ny).
  assert (0 <= j * nx + i < nx * (ny + 1)) by nia.
  assert (0 < fslice nx ny) by (unfold fslice; nia).
  assert (fbetween nx ny = (nx + 1) * ny + nx * (ny + 1)) by reflexivity.
  assert (0 < (nx + 1) * ny) by nia.
  assert (HB : 0 <= fslice nx ny + (j * nx + i) < fstride nx ny) by (unfold fstride; lia).
  rewrite (radix_mod _ _ _ HB), (radix_div _ _ _ HB).
  destruct (fslice nx ny + (j * nx + i) <? fslice nx ny) eqn:E; [apply Z.ltb_lt in E; lia|].
  replace (fslice nx ny + (j * nx + i) - fslice nx ny) with (j * nx + i) by ring.
  destruct (j * nx + i <? nx * (ny + 1)) eqn:E'; [|apply Z.ltb_ge in E'; lia].
  rewrite radix_div, radix_mod by lia. rewrite node_coordinates_of_corner by lia.
  unfold enc_face3, square, shift3, add3, e3_1, e3_3; cbn [map fst snd]. reflexivity.
Qed.

Lemma face3_yz : forall nx ny i j k, 0 < nx -> 0 < ny -> 0 <= i <= nx -> 0 <= j < ny ->
  face3 nx ny (k * fstride nx ny + (fslice nx ny + (nx * (ny + 1) + (j * (nx + 1) + i)))) =
  enc_face3 nx ny (square (i, j, k) (0,1,0) (0,0,1)).
Proof.
  intros nx ny i j k Hx Hy Hi Hj. unfold face3.
  fold (fslice nx ny) (fbetween nx ny) (fstride nx ny).
  assert (0 <= j * (nx + 1) + i < (nx + 1) * ny) by nia.
  assert (0 < fslice nx ny) by (unfold fslice; nia).
  assert (fbetween nx ny = (nx + 1) * ny + nx * (ny + 1)) by reflexivity.
  assert (0 < nx * (ny + 1)) by nia.
  assert (HB : 0 <= fslice nx ny + (nx * (ny + 1) + (j * (nx + 1) + i)) < fstride nx ny) by (unfold fstride; lia).
  rewrite (radix_mod _ _ _ HB), (radix_div _ _ _ HB).
  destruct (fslice nx ny + (nx * (ny + 1) + (j * (nx + 1) + i)) <? fslice nx ny) eqn:E; [apply Z.ltb_lt in E; lia|].
  replace (fslice nx ny + (nx * (ny + 1) + (j * (nx + 1) + i)) - fslice nx ny)
    with (nx * (ny + 1) + (j * (nx + 1) + i)) by ring.
  destruct (nx * (ny + 1) + (j * (nx + 1) + i) <? nx * (ny + 1)) eqn:E'; [apply Z.ltb_lt in E'; lia|].
  replace (nx * (ny + 1) + (j * (nx + 1) + i) - nx * (ny + 1)) with (j * (nx + 1) + i) by ring.
  rewrite Z.add_assoc.
  rewrite node_coordinates_of_corner by lia.
  unfold enc_face3, square, shift3, add3, e3_2, e3_3; cbn [map fst snd]. reflexivity.
Qed.

Lemma face3_cases : forall nx ny nz x, 0 < nx -> 0 < ny -> 0 < nz ->
  below (number_of_faces3 nx ny nz) x ->
  (exists i j k, x = k * fstride nx ny + (j * nx + i) /\ 0 <= i < nx /\ 0 <= j < ny /\ 0 <= k <= nz) \/
  (exists i j k, x = k * fstride nx ny + (fslice nx ny + (j * nx + i)) /\ 0 <= i < nx /\ 0 <= j <= ny /\ 0 <= k < nz) \/
  (exists i j k, x = k * fstride nx ny + (fslice nx ny + (nx * (ny + 1) + (j * (nx + 1) + i))) /\ 0 <= i <= nx /\ 0 <= j < ny /\ 0 <= k < nz).
Proof.
  intros nx ny nz x Hx Hy Hz Hb. unfold below in Hb.
  assert (Hs : 0 < fslice nx ny) by (unfold fslice; nia).
  assert (Hbw : 0 < fbetween nx ny) by (unfold fbetween; nia).
  assert (Hst : 0 < fstride nx ny) by (unfold fstride; lia).
  assert (HN : number_of_faces3 nx ny nz = nz * fstride nx ny + fslice nx ny)
    by (unfold number_of_faces3, fstride, fbetween, fslice; ring).
  destruct (radix_decomp x (fstride nx ny) Hst) as (k & s & Hsb & E & Ek & _).
  assert (0 <= k) by (subst k; apply Z.div_pos; lia).
  assert (fslice nx ny < fstride nx ny) by (unfold fstride; lia).
  destruct (Z_lt_ge_dec s (fslice nx ny)) as [Hlt|Hge].
  - assert (k <= nz) by nia. left.
    destruct (radix_decomp s nx Hx) as (j & i & Hi & E' & _ & _).
    assert (0 <= j < ny) by (apply (radix_q_bounds nx ny j i Hi); unfold fslice in Hlt; lia).
    exists i, j, k. subst. repeat split; lia.
  - assert (k < nz) by nia. right.
    destruct (Z_lt_ge_dec (s - fslice nx ny) (nx * (ny + 1))) as [Hlt'|Hge'].
    + left. destruct (radix_decomp (s - fslice nx ny) nx Hx) as (j & i & Hi & E' & _ & _).
      assert (0 <= j < ny + 1) by (apply (radix_q_bounds nx (ny + 1) j i Hi); lia).
      exists i, j, k. repeat split; lia.
    + right.
      destruct (radix_decomp (s - fslice nx ny - nx * (ny + 1)) (nx + 1) ltac:(lia)) as (j & i & Hi & E' & _ & _).
      assert (0 <= j < ny).
      { apply (radix_q_bounds (nx + 1) ny j i Hi). unfold fstride, fbetween in Hsb. lia. }
      exists i, j, k. repeat split; lia.
Qed.

Lemma cons_inj : forall (A : Type) (a b : A) l l', a :: l = b :: l' -> a = b /\ l = l'.
Proof. intros A a b l l' H. split; congruence. Qed.

Ltac face_inj Hinj :=
  match goal with
  | H : enc_face3 _ _ _ = enc_face3 _ _ _ |- _ =>
    unfold enc_face3, square, shift3 in H; cbn [map fst snd] in H;
    repeat match type of H with _ :: _ = _ :: _ => apply cons_inj in H; destruct H as [? H] end;
    clear H; repeat match goal with
    | H : node_index_at3 _ _ _ = node_index_at3 _ _ _ |- _ =>
      apply Hinj in H; [ inversion H; clear H | unfold box3, below; lia | unfold box3, below; lia ]
    end
  end.

Lemma faces3_enumeration : forall nx ny nz, 0 < nx -> 0 < ny -> 0 < nz ->
  enumerates (number_of_faces3 nx ny nz) (face3 nx ny) (enc_face3 nx ny) (unit_square3 nx ny nz).
Proof.
  intros nx ny nz Hx Hy Hz.
  assert (Hs : 0 < fslice nx ny) by (unfold fslice; nia).
  assert (Hbw : 0 < fbetween nx ny) by (unfold fbetween; nia).
  assert (Hst : 0 < fstride nx ny) by (unfold fstride; lia).
  assert (HN : number_of_faces3 nx ny nz = nz * fstride nx ny + fslice nx ny)
    by (unfold number_of_faces3, fstride, fbetween, fslice; ring).
  split; [|split].
  - intros x Hb.
    destruct (face3_cases nx ny nz x Hx Hy Hz Hb) as [(i & j & k & -> & Hi & Hj & Hk)|[(i & j & k & -> & Hi & Hj & Hk)|(i & j & k & -> & Hi & Hj & Hk)]].
    + exists (square (i, j, k) (1,0,0) (0,1,0)). rewrite face3_xy by lia. split; [|reflexivity].
      exists (i, j, k), (1,0,0), (0,1,0). split; [tauto|]. split; [reflexivity|].
      repeat constructor; unfold shift3; simpl; lia.
    + exists (square (i, j, k) (1,0,0) (0,0,1)). rewrite face3_xz by lia. split; [|reflexivity].
      exists (i, j, k), (1,0,0), (0,0,1). split; [tauto|]. split; [reflexivity|].
      repeat constructor; unfold shift3; simpl; lia.
    + exists (square (i, j, k) (0,1,0) (0,0,1)). rewrite face3_yz by lia. split; [|reflexivity].
      exists (i, j, k), (0,1,0), (0,0,1). split; [tauto|]. split; [reflexivity|].
      repeat constructor; unfold shift3; simpl; lia.
  - intros sq (a & u & v & Huv & -> & HF). destruct a as [[i j] k].
    rewrite Forall_forall in HF.
    pose proof (HF (i, j, k) (or_introl eq_refl)) as H1.
    pose proof (HF (shift3 (shift3 (i, j, k) u) v) ltac:(simpl; tauto)) as H2.
    destruct Huv as [[-> ->]|[[-> ->]|[-> ->]]]; unfold shift3, box3, below in H1, H2; simpl in H1, H2;
      unfold below; rewrite HN.
    + exists (k * fstride nx ny + (j * nx + i)). split.
      { assert (0 <= j * nx + i < fslice nx ny) by (unfold fslice; nia). nia. }
      rewrite face3_xy by lia. reflexivity.
    + exists (k * fstride nx ny + (fslice nx ny + (j * nx + i))). split.
      { assert (0 <= j * nx + i < nx * (ny + 1)) by nia.
        assert (nx * (ny + 1) < fbetween nx ny) by (unfold fbetween; nia).
        assert (fslice nx ny + (j * nx + i) < fstride nx ny) by (unfold fstride; lia). nia. }
      rewrite face3_xz by lia. reflexivity.
    + exists (k * fstride nx ny + (fslice nx ny + (nx * (ny + 1) + (j * (nx + 1) + i)))). split.
      { assert (0 <= j * (nx + 1) + i < (nx + 1) * ny) by nia.
        assert (fslice nx ny + (nx * (ny + 1) + (j * (nx + 1) + i)) < fstride nx ny) by (unfold fstride, fbetween; lia). nia. }
      rewrite face3_yz by lia. reflexivity.
  - intros a b Ha Hb E.
    assert (Hinj := inverse_injective _ _ _ _ _ _ (nodes3_inverse nx ny nz Hx Hy Hz)).
    destruct (face3_cases nx ny nz a Hx Hy Hz Ha) as [(i & j & k & -> & Hi & Hj & Hk)|[(i & j & k & -> & Hi & Hj & Hk)|(i & j & k & -> & Hi & Hj & Hk)]];
    destruct (face3_cases nx ny nz b Hx Hy Hz Hb) as [(i' & j' & k' & -> & Hi' & Hj' & Hk')|[(i' & j' & k' & -> & Hi' & Hj' & Hk')|(i' & j' & k' & -> & Hi' & Hj' & Hk')]];
    first [rewrite (face3_xy nx ny i j k) in E by lia | rewrite (face3_xz nx ny i j k) in E by lia | rewrite (face3_yz nx ny i j k) in E by lia];
    first [rewrite (face3_xy nx ny i' j' k') in E by lia | rewrite (face3_xz nx ny i' j' k') in E by lia | rewrite (face3_yz nx ny i' j' k') in E by lia];
    face_inj Hinj; subst; try lia.
Qed.
