(** C77: the implicit surfaces and the grids they make. *)

From Coq Require Import ZArith Reals Lra Lia Permutation.
From Coq Require Import List Arith Bool.
From Verif Require Import GridModel GridSpec GridProofs GridGeoModel GridGeoSpec GridGeoProofs ShapeModel Sums FictModel FictSpec FictProofs
  FictProperties3 FictProperties4 IsoModel IsoSpec IsoProofs.
Import ListNotations.
Open Scope R_scope.

(** The circle and the sphere are negative strictly inside, null on the surface and positive outside.  A negative radius acts as its absolute value. *)
Theorem C77_circle_and_sphere : forall r c x,
  (circle_iso_value r c x < 0 <-> distance x c < Rabs r) /\
  (circle_iso_value r c x = 0 <-> distance x c = Rabs r) /\
  (0 < circle_iso_value r c x <-> Rabs r < distance x c) /\
  (sphere_iso_value r c x < 0 <-> distance x c < Rabs r) /\
  (sphere_iso_value r c x = 0 <-> distance x c = Rabs r) /\
  (0 < sphere_iso_value r c x <-> Rabs r < distance x c).
Proof.
  intros r c x. unfold circle_iso_value, sphere_iso_value. rewrite distance_squared.
  destruct (sign_of_squares (distance x c) r (distance_pos x c)) as (A & B & C). tauto.
Qed.
Print Assumptions C77_circle_and_sphere.

(** The cylinder is the infinite one. *)
Theorem C77_infinite_cylinder_partial : forall r len c x,
  (cylinder_iso_value r len c x < 0 <-> distance (firstn 2 x) (firstn 2 c) < Rabs r) /\
  (cylinder_iso_value r len c x = 0 <-> distance (firstn 2 x) (firstn 2 c) = Rabs r) /\
  (0 < cylinder_iso_value r len c x <-> Rabs r < distance (firstn 2 x) (firstn 2 c)).
Proof. intros r len c x. unfold cylinder_iso_value. rewrite distance_squared. apply sign_of_squares, distance_pos. Qed.
Print Assumptions C77_infinite_cylinder_partial.

(** Its length has no effect: for every cylinder of positive radius, points arbitrarily far along its axis are inside. *)
Theorem C77_cylinder_length_refuted : forall r len cx cy cz, 0 < r -> forall h, exists x, length x = 3%nat /\
  Rabs (nth 2 x 0 - cz) >= Rabs h /\ (Rabs h >= len / 2 -> ~ open_cylinder [cx; cy; cz] r len x) /\ cylinder_iso_value r len [cx; cy; cz] x < 0.
Proof.
  intros r len cx cy cz Hr h. exists [cx; cy; cz + h]. split; [reflexivity|]. cbn [nth].
  assert (E : Rabs (cz + h - cz) = Rabs h) by (f_equal; ring). rewrite E. split; [lra|]. split.
  - intros Hh [_ C]. cbn [nth] in C. rewrite E in C. lra.
  - unfold cylinder_iso_value. cbn. nra.
Qed.
Print Assumptions C77_cylinder_length_refuted.

(** ** The grid made from a circle or a sphere *)

(** In two dimensions, if no node of the grid is on the circle: the grid is created; the cells of type Inside are those that lie entirely
    in the disc; the cells of type Boundary meet the disc and its exterior; those of type Outside have their corners out of the disc; the
    elements are the cells with a corner in the disc.
    Missing: the cells that meet the disc and have no corner in it (below); grids with a node on the circle (C39). *)
Theorem C77_circle_grid_partial : forall g r c n s, valid_grid g -> length g = 2%nat -> length c = 2%nat -> 0 <= r ->
  (forall k x, cell_of g k -> corner_of g k x -> distance x c <> r) ->
  exists comp, create_grid_from_iso_surface g (circle_iso_value r c) n 0 s = Some (Ok comp) /\
    (forall k, cell_of g k ->
       let ty := nth_error (cells_types (surface comp)) (Z.to_nat (cell_index_at (subdivisions g) k)) in
       (ty = Some Inside <-> forall x, closed_cell g k x -> open_ball c r x) /\
       (ty = Some Boundary -> (exists x, closed_cell g k x /\ open_ball c r x) /\ (exists x, closed_cell g k x /\ r < distance x c)) /\
       (ty = Some Outside <-> forall x, corner_of g k x -> r < distance x c)) /\
    numbering (Z.to_nat (number_of_cells (subdivisions g)))
      (fun i => exists k x, cell_of g k /\ cell_index_at (subdivisions g) k = Z.of_nat i /\ corner_of g k x /\ open_ball c r x)
      (cell_index_in_sparse_grid (sparse_grid comp)) (cell_index_in_grid (sparse_grid comp)).
Proof.
  intros g r c n s Hg HD Lc Hr NZ.
  assert (Sg : forall x, (circle_iso_value r c x < 0 <-> distance x c < r) /\ (circle_iso_value r c x = 0 <-> distance x c = r) /\
                         (0 < circle_iso_value r c x <-> r < distance x c)).
  { intros x. pose proof (C77_circle_and_sphere r c x) as (A & B & C & _). rewrite (Rabs_pos_eq r Hr) in *. tauto. }
  assert (Hv : Forall valid_axis g) by apply Hg.
  destruct (C73_implicit_surface_partial g (circle_iso_value r c) n s Hg (or_introl HD)) as (comp & E & T & _ & N).
  { intros C. rewrite HD in C. discriminate. }
  { intros k x Hk Hx C. apply Sg in C. exact (NZ k x Hk Hx C). }
  exists comp. split; [exact E|]. split.
  - intros k Hk. cbv zeta. split; [|split].
    + rewrite (T k Inside Hk). cbn [type_at_corners]. split.
      * intros H x Hx. destruct (farthest_corner g k x Hx c) as (y & Hy & Hd).
        split; [rewrite (axiswise_length _ _ _ _ Hx); congruence|]. apply Sg. specialize (H y Hy). unfold circle_iso_value in *. lra.
      * intros H x Hx. apply Sg. apply (H x), corner_in_cell; assumption.
    + rewrite (T k Boundary Hk). intros [(x & Hx & Px) (y & Hy & Py)]. split.
      * exists y. pose proof (corner_in_cell g Hv k y Hy) as Cy. split; [exact Cy|]. split; [rewrite (axiswise_length _ _ _ _ Cy); congruence|].
        apply Sg. destruct (Rle_lt_or_eq_dec _ _ Py) as [P|P]; [exact P|]. apply Sg in P. exfalso. exact (NZ k y Hk Hy P).
      * exists x. pose proof (corner_in_cell g Hv k x Hx) as Cx. split; [exact Cx|].
        apply Sg. destruct (Rle_lt_or_eq_dec _ _ Px) as [P|P]; [exact P|]. symmetry in P. apply Sg in P. exfalso. exact (NZ k x Hk Hx P).
    + rewrite (T k Outside Hk). cbn [type_at_corners]. split; intros H x Hx; apply Sg, H, Hx.
  - destruct N as (N1 & N2 & N3 & N4). 
    assert (Eq : forall i, (exists k x, cell_of g k /\ cell_index_at (subdivisions g) k = Z.of_nat i /\ corner_of g k x /\ circle_iso_value r c x < 0) <->
                           (exists k x, cell_of g k /\ cell_index_at (subdivisions g) k = Z.of_nat i /\ corner_of g k x /\ open_ball c r x)).
    { intros i. split; intros (k & x & A & B & Cx & D); exists k, x; repeat split; try assumption; try (apply Sg, D).
      rewrite (axiswise_length _ _ _ _ Cx). congruence. }
    split; [exact N1|]. split; [|split].
    + intros k i Ek. destruct (N2 k i Ek) as (q & A & B & D & F). exists q. rewrite <- Eq. auto.
    + intros q Hq U. apply N3; [exact Hq|]. apply Eq, U.
    + intros q Hq U. apply N4; [exact Hq|]. intros C. apply U, Eq, C.
Qed.
Print Assumptions C77_circle_grid_partial.

Lemma plane_step : forall a i, plane a i = ax_anchor a + IZR i * (ax_size a / IZR (ax_n a)).
Proof. intros a i. unfold plane, Rdiv. ring. Qed.
Lemma plane_far : forall a i h, h = ax_size a / IZR (ax_n a) -> h * h / 4 <= (plane a i - (ax_anchor a + h / 2)) * (plane a i - (ax_anchor a + h / 2)).
Proof.
  intros a i h E. rewrite plane_step, <- E.
  replace (ax_anchor a + IZR i * h - (ax_anchor a + h / 2)) with (h * (IZR i - 1 / 2)) by field.
  assert (1 / 4 <= (IZR i - 1 / 2) * (IZR i - 1 / 2)).
  { destruct (Z_le_gt_dec i 0) as [L|L]; [apply IZR_le in L; nra|]. assert (1 <= i)%Z as M by lia. apply IZR_le in M. nra. }
  replace (h * (IZR i - 1 / 2) * (h * (IZR i - 1 / 2))) with (h * h * ((IZR i - 1 / 2) * (IZR i - 1 / 2))) by ring.
  pose proof (Rle_0_sqr h) as S. unfold Rsqr in S. nra.
Qed.

(** On every grid there is a disc with a positive radius, inside the grid, for which no element is made. *)
Theorem C77_small_disc_refuted : forall g n s, valid_grid g -> length g = 2%nat ->
  exists k r c comp, cell_of g k /\ 0 < r /\ length c = 2%nat /\ (forall x, open_ball c r x -> closed_cell g k x) /\
    (forall k x, cell_of g k -> corner_of g k x -> distance x c <> r) /\
    create_grid_from_iso_surface g (circle_iso_value r c) n 0 s = Some (Ok comp) /\ cell_index_in_grid (sparse_grid comp) = [].
Proof.
  intros g n s Hg HD. destruct g as [|a [|b [|]]]; try discriminate.
  pose proof (proj2 Hg) as F. inversion F as [|? ? Ha F']; subst. inversion F' as [|? ? Hb _]; subst. clear F F'.
  destruct Ha as [Na Sa], Hb as [Nb Sb].
  set (hx := ax_size a / IZR (ax_n a)). set (hy := ax_size b / IZR (ax_n b)).
  assert (Px : 0 < hx) by (apply Rdiv_lt_0_compat; [exact Sa|apply IZR_lt, Na]).
  assert (Py : 0 < hy) by (apply Rdiv_lt_0_compat; [exact Sb|apply IZR_lt, Nb]).
  set (r := Rmin hx hy / 4). set (c := [ax_anchor a + hx / 2; ax_anchor b + hy / 2]).
  assert (Mx : Rmin hx hy <= hx) by apply Rmin_l. assert (My : Rmin hx hy <= hy) by apply Rmin_r.
  assert (M : 0 < Rmin hx hy) by (apply Rmin_glb_lt; assumption).
  assert (Pr : 0 < r) by (unfold r; lra).
  assert (Far : forall k x, corner_of [a; b] k x -> r < distance x c).
  { intros k x H. inversion H as [|? ? i ? u ? Hu H']; subst. inversion H' as [|? ? j ? v ? Hv H'']; subst. inversion H''; subst.
    pose proof (distance_pos [u; v] c) as P. pose proof (distance_squared [u; v] c) as D. cbn [squared_distance c] in D.
    assert (Du : hx * hx / 4 <= (u - (ax_anchor a + hx / 2)) * (u - (ax_anchor a + hx / 2))) by (destruct Hu; subst u; apply plane_far; reflexivity).
    assert (Dv : hy * hy / 4 <= (v - (ax_anchor b + hy / 2)) * (v - (ax_anchor b + hy / 2))) by (destruct Hv; subst v; apply plane_far; reflexivity).
    set (d := distance [u; v] c) in *. clearbody d. unfold c in D. rewrite Rplus_0_r in D.
    assert (r < hx / 2) by (unfold r; lra). assert (r * r < d * d) by nra. nra. }
  destruct (C77_circle_grid_partial [a; b] r c n s Hg eq_refl eq_refl (Rlt_le _ _ Pr)) as (comp & E & _ & N).
  { intros k x _ Hx. specialize (Far k x Hx). lra. }
  exists [0; 0]%Z, r, c, comp. split; [repeat constructor; lia|]. split; [exact Pr|]. split; [reflexivity|]. split; [|split; [|split; [exact E|]]].
  - intros x [Lx Dx]. destruct x as [|u [|v [|]]]; try discriminate.
    pose proof (distance_pos [u; v] c) as P. pose proof (distance_squared [u; v] c) as D. unfold c in D. cbn [squared_distance] in D. fold c in D.
    set (d := distance [u; v] c) in *. clearbody d. rewrite Rplus_0_r in D.
    assert (Q : d * d < r * r) by nra.
    pose proof (Rle_0_sqr (u - (ax_anchor a + hx / 2))) as S1. pose proof (Rle_0_sqr (v - (ax_anchor b + hy / 2))) as S2. unfold Rsqr in S1, S2.
    assert (Bu : - r < u - (ax_anchor a + hx / 2) < r) by (split; nra).
    assert (Bv : - r < v - (ax_anchor b + hy / 2) < r) by (split; nra).
    unfold r in Bu, Bv. repeat constructor; rewrite plane_step; fold hx hy; cbn [Z.add]; lra.
  - intros k x _ Hx. specialize (Far k x Hx). lra.
  - destruct (cell_index_in_grid (sparse_grid comp)) as [|i l] eqn:El; [reflexivity|]. exfalso.
    destruct N as (_ & N2 & _). destruct (N2 0%nat i) as (q & _ & _ & (k & x & _ & _ & Hx & _ & Hd) & _); [reflexivity|].
    specialize (Far k x Hx). lra.
Qed.
Print Assumptions C77_small_disc_refuted.

Example C77_circle_hypotheses : forall k x, cell_of two_cells k -> corner_of two_cells k x -> distance x [0; 0] <> 3 / 2.
Proof.
  intros k x Hk Hx E. pose proof (distance_squared x [0; 0]) as D. rewrite E in D.
  inversion Hx as [|? ? i ? u ? Hu H']; subst. inversion H' as [|? ? j ? v ? Hv H'']; subst. inversion H''; subst.
  inversion Hk as [|? ? ? ? Hi Hk']; subst. inversion Hk' as [|? ? ? ? Hj _]; subst. cbn [ax_n] in Hi, Hj.
  assert (Hu' : u = 0 \/ u = 1 \/ u = 2).
  { rewrite !plane_step in Hu. cbn [ax_anchor ax_size ax_n] in Hu. assert (i = 0 \/ i = 1)%Z as [-> | ->] by lia; cbn [Z.add Pos.add Pos.succ] in Hu; destruct Hu as [->| ->]; first [left; lra|right; left; lra|right; right; lra]. }
  assert (Hv' : v = 0 \/ v = 1).
  { rewrite !plane_step in Hv. cbn [ax_anchor ax_size ax_n] in Hv. assert (j = 0)%Z as -> by lia; cbn [Z.add Pos.add Pos.succ] in Hv; destruct Hv as [->| ->]; first [left; lra|right; lra]. }
  cbn [squared_distance] in D. destruct Hu' as [->|[->| ->]], Hv' as [->| ->]; lra.
Qed.
