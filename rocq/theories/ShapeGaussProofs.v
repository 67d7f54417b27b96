(** Proofs about the quadrature rules (C17, C18) and containment (C22). *)

From Coq Require Import Reals Lra Lia.
From Coquelicot Require Import Coquelicot.
From Coq Require Import List.
From Flocq Require Import Core.Raux.
From Verif Require Import GridGeoModel ShapeModel ShapeSpec ShapeProofs ShapeFieldProofs.
Import ListNotations.
Open Scope R_scope.

Ltac eqR := match goal with |- ?a = ?b => change (@eq R a b) end.

(** ** One dimensional integrals of polynomials *)
Lemma RInt_poly4 : forall a0 a1 a2 a3 a4 p q,
  RInt (fun x => a0 + a1 * x + a2 * x ^ 2 + a3 * x ^ 3 + a4 * x ^ 4) p q =
  (a0 * q + a1 * q ^ 2 / 2 + a2 * q ^ 3 / 3 + a3 * q ^ 4 / 4 + a4 * q ^ 5 / 5) -
  (a0 * p + a1 * p ^ 2 / 2 + a2 * p ^ 3 / 3 + a3 * p ^ 4 / 4 + a4 * p ^ 5 / 5).
Proof.
  intros a0 a1 a2 a3 a4 p q. apply is_RInt_unique.
  apply (is_RInt_derive (fun x => a0 * x + a1 * x ^ 2 / 2 + a2 * x ^ 3 / 3 + a3 * x ^ 4 / 4 + a4 * x ^ 5 / 5)
                        (fun x => a0 + a1 * x + a2 * x ^ 2 + a3 * x ^ 3 + a4 * x ^ 4)).
  - intros x _. auto_derive; [exact I|]. simpl. field.
  - intros x _. apply continuity_pt_filterlim. apply derivable_continuous_pt.
    eexists. apply is_derive_Reals. auto_derive; [exact I|reflexivity].
Qed.

(** The polynomial of degree four through the values of [f] at -2, -1, 0, 1, 2. *)
Definition lagrange4 (f : R -> R) (x : R) : R :=
  f (-2) * ((x+1)*x*(x-1)*(x-2)/24) + f (-1) * (-(x+2)*x*(x-1)*(x-2)/6)
  + f 0 * ((x+2)*(x+1)*(x-1)*(x-2)/4) + f 1 * (-(x+2)*(x+1)*x*(x-2)/6)
  + f 2 * ((x+2)*(x+1)*x*(x-1)/24).

(** Boole's rule. *)
Definition boole (f : R -> R) (p q : R) : R :=
  (q - p) / 90 * (7 * f p + 32 * f (p + (q-p)/4) + 12 * f (p + (q-p)/2) + 32 * f (p + 3*(q-p)/4) + 7 * f q).

Lemma RInt_boole : forall f p q, (forall x, f x = lagrange4 f x) -> RInt f p q = boole f p q.
Proof.
  intros f p q H.
  set (m2 := f (-2)). set (m1 := f (-1)). set (z0 := f 0). set (p1 := f 1). set (p2 := f 2).
  assert (E : forall x, f x = z0 + ((m2 - 8*m1 + 8*p1 - p2)/12) * x
     + ((-m2 + 16*m1 - 30*z0 + 16*p1 - p2)/24) * x^2 + ((-m2 + 2*m1 - 2*p1 + p2)/12) * x^3
     + ((m2 - 4*m1 + 6*z0 - 4*p1 + p2)/24) * x^4).
  { intros x. rewrite H. unfold lagrange4. fold m2 m1 z0 p1 p2. field. }
  rewrite (RInt_ext f _ p q (fun x _ => E x)). rewrite RInt_poly4.
  unfold boole. rewrite !E. eqR. field.
Qed.

(** ** The two point rule on [-1,1] *)
Lemma sqrt3_sqr : sqrt 3 * sqrt 3 = 3.
Proof. apply sqrt_sqrt. lra. Qed.

Lemma sqrt3_bounds : 1 < sqrt 3 < 2.
Proof.
  pose proof sqrt3_sqr. assert (0 < sqrt 3) by (apply sqrt_lt_R0; lra). split; nra.
Qed.

Definition g3 : R := 1 / sqrt 3.

Lemma g3_sqr : g3 * g3 = 1 / 3.
Proof.
  unfold g3. pose proof sqrt3_bounds. pose proof sqrt3_sqr.
  replace (1 / sqrt 3 * (1 / sqrt 3)) with (1 / (sqrt 3 * sqrt 3)) by (field; lra). rewrite H0. reflexivity.
Qed.

Lemma g3_bounds : 0 < g3 < 1.
Proof.
  assert (0 < g3). { unfold g3. pose proof sqrt3_bounds. apply Rdiv_lt_0_compat; lra. }
  pose proof g3_sqr. split; [assumption|nra].
Qed.

Lemma neg_g3 : -1 / sqrt 3 = - g3.
Proof. unfold g3. field. pose proof sqrt3_bounds. lra. Qed.

Lemma cubic1_unfold : forall a x, cubic1 a x = a 0%nat + a 1%nat * x + a 2%nat * x ^ 2 + a 3%nat * x ^ 3.
Proof.
  intros a x. unfold cubic1. rewrite !sum_Sn, sum_O. unfold plus; simpl. ring.
Qed.

Lemma cubic1_RInt : forall a, RInt (fun x => cubic1 a x) (-1) 1 = cubic1 a (- g3) + cubic1 a g3.
Proof.
  intros a.
  rewrite (RInt_ext (fun x => cubic1 a x) (fun x => a 0%nat + a 1%nat * x + a 2%nat * x ^ 2 + a 3%nat * x ^ 3 + 0 * x ^ 4)).
  - rewrite RInt_poly4, !cubic1_unfold. pose proof g3_sqr.
    replace (g3 ^ 2) with (1/3) by (rewrite <- H; ring).
    replace ((- g3) ^ 2) with (1/3) by (rewrite <- H; ring). eqR. simpl. field.
  - intros x _. rewrite cubic1_unfold. eqR. ring.
Qed.

Lemma cubic1_add : forall a b x, cubic1 a x + cubic1 b x = cubic1 (fun i => a i + b i) x.
Proof. intros. rewrite !cubic1_unfold. ring. Qed.

Lemma cubic1_ext : forall a b x, (forall i, a i = b i) -> cubic1 a x = cubic1 b x.
Proof. intros a b x H. rewrite !cubic1_unfold, !H. reflexivity. Qed.

Lemma cubic_swap : forall (a : nat -> nat -> R) x y,
  cubic1 (fun i => cubic1 (a i) y) x = cubic1 (fun j => cubic1 (fun i => a i j) x) y.
Proof. intros. rewrite !cubic1_unfold. ring. Qed.

Lemma cubic2_RInt : forall a,
  RInt (fun v => RInt (fun u => cubic2 a u v) (-1) 1) (-1) 1 =
  cubic2 a (- g3) (- g3) + cubic2 a g3 (- g3) + cubic2 a g3 g3 + cubic2 a (- g3) g3.
Proof.
  intros a.
  rewrite (RInt_ext _ (fun v => cubic1 (fun j => cubic1 (fun i => a i j) (- g3) + cubic1 (fun i => a i j) g3) v)).
  - rewrite cubic1_RInt. unfold cubic2. rewrite !(cubic_swap a), <- !cubic1_add. eqR. ring.
  - intros v _. unfold cubic2.
    rewrite (cubic1_RInt (fun i => cubic1 (a i) v)). rewrite !(cubic_swap a), cubic1_add. reflexivity.
Qed.

Lemma cubic3_RInt : forall a,
  RInt (fun w => RInt (fun v => RInt (fun u => cubic3 a u v w) (-1) 1) (-1) 1) (-1) 1 =
  cubic3 a (- g3) (- g3) (- g3) + cubic3 a g3 (- g3) (- g3) + cubic3 a (- g3) g3 (- g3) + cubic3 a g3 g3 (- g3) +
  cubic3 a (- g3) (- g3) g3 + cubic3 a g3 (- g3) g3 + cubic3 a (- g3) g3 g3 + cubic3 a g3 g3 g3.
Proof.
  intros a.
  (* cubic3 a u v w as a polynomial in (v, w) whose coefficients are cubic in u *)
  assert (S : forall u v w, cubic3 a u v w = cubic2 (fun j k => cubic1 (fun i => a i j k) u) v w).
  { intros u v w. unfold cubic3, cubic2.
    rewrite (cubic_swap (fun i j => cubic1 (a i j) w) u v). apply cubic1_ext. intros j.
    apply (cubic_swap (fun i k => a i j k) u w). }
  set (p := fun j k => cubic1 (fun i => a i j k) (- g3)). set (q := fun j k => cubic1 (fun i => a i j k) g3).
  assert (A : forall v w, cubic2 p v w + cubic2 q v w = cubic2 (fun j k => p j k + q j k) v w).
  { intros v w. unfold cubic2. rewrite cubic1_add. apply cubic1_ext. intros i. apply cubic1_add. }
  rewrite (RInt_ext _ (fun w => RInt (fun v => cubic2 (fun j k => p j k + q j k) v w) (-1) 1)).
  - rewrite (cubic2_RInt (fun j k => p j k + q j k)), !S. fold p. fold q. rewrite <- !A. eqR. ring.
  - intros w _. apply RInt_ext. intros v _. unfold cubic3.
    rewrite (cubic1_RInt (fun i => cubic2 (a i) v w)).
    fold (cubic3 a (- g3) v w) (cubic3 a g3 v w). rewrite !S. fold p. fold q. apply A.
Qed.

(** ** The rules of the elements *)
Lemma segment_linear_exact : forall c b,
  quadrature Segment_Linear (affine c [b]) = reference_integral Segment_Linear (affine c [b]).
Proof.
  intros c b. unfold reference_integral, affine. rewrite RInt_boole; [|intros; unfold lagrange4; simpl; eqR; field].
  unfold quadrature, boole. simpl. eqR. field.
Qed.

Lemma segment_exact : forall a,
  quadrature Segment_Quadratic (cubic1_field a) = reference_integral Segment_Quadratic (cubic1_field a).
Proof.
  intros a. unfold reference_integral, cubic1_field. cbn [nth].
  rewrite (cubic1_RInt a). unfold quadrature. cbn [gauss_nodes Segment_Quadratic_gauss map fst snd Rsum fold_right nth].
  rewrite !neg_g3. fold g3. eqR. ring.
Qed.

Lemma quad_exact : forall e a,
  e = Quad_Linear \/ e = Quad_Quadratic \/ e = RectangularQuad_Linear \/ e = RectangularQuad_Quadratic ->
  quadrature e (cubic2_field a) = reference_integral e (cubic2_field a).
Proof.
  intros e a [->|[->|[->| ->]]]; unfold reference_integral, cubic2_field; cbn [nth];
    rewrite (cubic2_RInt a); unfold quadrature;
    cbn [gauss_nodes Quad_Linear_gauss Quad_Quadratic_gauss RectangularQuad_Linear_gauss
         RectangularQuad_Quadratic_gauss map fst snd Rsum fold_right nth];
    rewrite !neg_g3; fold g3; eqR; ring.
Qed.

Lemma hexahedron_exact : forall e a,
  e = Hexahedron_Linear \/ e = Hexahedron_Quadratic \/
  e = RectangularHexahedron_Linear \/ e = RectangularHexahedron_Quadratic ->
  quadrature e (cubic3_field a) = reference_integral e (cubic3_field a).
Proof.
  intros e a [->|[->|[->| ->]]]; unfold reference_integral, cubic3_field; cbn [nth];
    rewrite (cubic3_RInt a); unfold quadrature;
    cbn [gauss_nodes Hexahedron_Linear_gauss Hexahedron_Quadratic_gauss RectangularHexahedron_Linear_gauss
         RectangularHexahedron_Quadratic_gauss map fst snd Rsum fold_right nth];
    rewrite !neg_g3; fold g3; eqR; ring.
Qed.

Ltac poly := intros; unfold lagrange4, boole, affine, quadratic; cbn [dot map nth]; eqR; field.

Lemma triangle_integral : forall c b0 b1 a00 a01 a10 a11,
  RInt (fun v => RInt (fun u => quadratic c [b0; b1] [[a00; a01]; [a10; a11]] [u; v]) 0 (1 - v)) 0 1 =
  c / 2 + b0 / 6 + b1 / 6 + a00 / 12 + a11 / 12 + (a01 + a10) / 24.
Proof.
  intros.
  rewrite (RInt_ext _ (fun v => boole (fun u => quadratic c [b0; b1] [[a00; a01]; [a10; a11]] [u; v]) 0 (1 - v))).
  - rewrite RInt_boole; poly.
  - intros v _. apply RInt_boole. poly.
Qed.

Lemma tetrahedron_integral : forall c b0 b1 b2 a00 a01 a02 a10 a11 a12 a20 a21 a22,
  RInt (fun w => RInt (fun v => RInt (fun u =>
    quadratic c [b0; b1; b2] [[a00; a01; a02]; [a10; a11; a12]; [a20; a21; a22]] [u; v; w])
    0 (1 - v - w)) 0 (1 - w)) 0 1 =
  c / 6 + (b0 + b1 + b2) / 24 + (a00 + a11 + a22) / 60 + (a01 + a10 + a02 + a20 + a12 + a21) / 120.
Proof.
  intros.
  set (f := fun u v w => quadratic c [b0; b1; b2] [[a00; a01; a02]; [a10; a11; a12]; [a20; a21; a22]] [u; v; w]).
  rewrite (RInt_ext _ (fun w => boole (fun v => boole (fun u => f u v w) 0 (1 - v - w)) 0 (1 - w))).
  - rewrite RInt_boole; unfold f; poly.
  - intros w _. rewrite (RInt_ext _ (fun v => boole (fun u => f u v w) 0 (1 - v - w))).
    + apply RInt_boole. unfold f. poly.
    + intros v _. apply (RInt_boole (fun u => f u v w)). unfold f. poly.
Qed.

Lemma affine_quadratic2 : forall c b0 b1 x, length x = 2%nat ->
  affine c [b0; b1] x = quadratic c [b0; b1] [[0; 0]; [0; 0]] x.
Proof. intros c b0 b1 x H. apply len2 in H. destruct H as (u & v & ->). poly. Qed.

Lemma affine_quadratic3 : forall c b0 b1 b2 x, length x = 3%nat ->
  affine c [b0; b1; b2] x = quadratic c [b0; b1; b2] [[0; 0; 0]; [0; 0; 0]; [0; 0; 0]] x.
Proof. intros c b0 b1 b2 x H. apply len3 in H. destruct H as (u & v & w & ->). poly. Qed.

Lemma triangle_quadratic_exact : forall c b A, length b = 2%nat -> square 2 A ->
  quadrature Triangle_Quadratic (quadratic c b A) = reference_integral Triangle_Quadratic (quadratic c b A).
Proof.
  intros c b A Hb HA. rows A HA. unfold reference_integral. rewrite triangle_integral.
  unfold quadrature, quadratic. cbn. field.
Qed.

Lemma triangle_linear_exact : forall c b, length b = 2%nat ->
  quadrature Triangle_Linear (affine c b) = reference_integral Triangle_Linear (affine c b).
Proof.
  intros c b Hb. apply len2 in Hb. destruct Hb as (b0 & b1 & ->). unfold reference_integral.
  rewrite (RInt_ext _ (fun v => RInt (fun u => quadratic c [b0; b1] [[0; 0]; [0; 0]] [u; v]) 0 (1 - v))).
  - rewrite triangle_integral. unfold quadrature, affine. cbn. field.
  - intros v _. apply RInt_ext. intros u _. apply affine_quadratic2. reflexivity.
Qed.

Lemma tetrahedron_affine_exact : forall e c b, e = Tetrahedron_Linear \/ e = Tetrahedron_Quadratic ->
  length b = 3%nat ->
  quadrature e (affine c b) = reference_integral e (affine c b).
Proof.
  intros e c b He Hb. apply len3 in Hb. destruct Hb as (b0 & b1 & b2 & ->).
  transitivity (c / 6 + (b0 + b1 + b2) / 24).
  - destruct He as [-> | ->]; unfold quadrature, affine; cbn; [field|lra].
  - symmetry.
    assert (E : RInt (fun w => RInt (fun v => RInt (fun u => affine c [b0; b1; b2] [u; v; w]) 0 (1 - v - w)) 0 (1 - w)) 0 1
                = c / 6 + (b0 + b1 + b2) / 24).
    { rewrite (RInt_ext _ (fun w => RInt (fun v => RInt (fun u =>
        quadratic c [b0; b1; b2] [[0; 0; 0]; [0; 0; 0]; [0; 0; 0]] [u; v; w]) 0 (1 - v - w)) 0 (1 - w))).
      - rewrite tetrahedron_integral. eqR. field.
      - intros w _. apply RInt_ext. intros v _. apply RInt_ext. intros u _. apply affine_quadratic3. reflexivity. }
    destruct He as [-> | ->]; exact E.
Qed.

(** The four point rule uses sixteen decimal digits; its error on a quadratic field is bounded by the sum of
    the absolute values of the second order coefficients times 1e-17. *)
Lemma tetrahedron_quadratic_error : forall c b A, length b = 3%nat -> square 3 A ->
  Rabs (quadrature Tetrahedron_Quadratic (quadratic c b A)
        - reference_integral Tetrahedron_Quadratic (quadratic c b A))
  <= Rsum (map (fun row => Rsum (map Rabs row)) A) * 1e-17.
Proof.
  intros c b A Hb HA. rows A HA. unfold reference_integral. rewrite tetrahedron_integral.
  unfold quadrature, quadratic.
  cbn [gauss_nodes Tetrahedron_Quadratic_gauss map fst snd Rsum fold_right dot].
  repeat match goal with |- context [Rabs ?x] => is_var x; 
    let H := fresh in pose proof (Rle_abs x) as H; let H' := fresh in pose proof (Rle_abs (- x)) as H'; rewrite Rabs_Ropp in H'; generalize dependent (Rabs x); intros end.
  apply Rabs_le. split; lra.
Qed.

Lemma tetrahedron_quadratic_not_exact :
  quadrature Tetrahedron_Quadratic (quadratic 0 [0; 0; 0] [[1; 0; 0]; [0; 0; 0]; [0; 0; 0]])
  <> reference_integral Tetrahedron_Quadratic (quadratic 0 [0; 0; 0] [[1; 0; 0]; [0; 0; 0]; [0; 0; 0]]).
Proof.
  unfold reference_integral. rewrite tetrahedron_integral. unfold quadrature, quadratic.
  cbn [gauss_nodes Tetrahedron_Quadratic_gauss map fst snd Rsum fold_right dot]. lra.
Qed.

(** Weights and positions *)
Lemma weights_sum : forall e, Rsum (map snd (gauss_nodes e)) = reference_measure e.
Proof. intros []; cbn; lra. Qed.

Lemma measure_is_integral : forall e, reference_integral e (fun _ => 1) = reference_measure e.
Proof.
  assert (C : forall p q, RInt (fun _ => 1) p q = q - p).
  { intros p q. rewrite RInt_const. unfold scal; simpl. unfold mult; simpl. ring. }
  assert (T : RInt (fun v => RInt (fun u => 1) 0 (1 - v)) 0 1 = 1 / 2).
  { rewrite (RInt_ext _ (fun v => 1 - v - 0)) by (intros; apply C). rewrite RInt_boole; poly. }
  assert (Q : RInt (fun v => RInt (fun u => 1) (-1) 1) (-1) 1 = 4).
  { rewrite (RInt_ext _ (fun v => 1 - -1)) by (intros; apply C). rewrite RInt_boole; poly. }
  assert (TT : RInt (fun w => RInt (fun v => RInt (fun u => 1) 0 (1 - v - w)) 0 (1 - w)) 0 1 = 1 / 6).
  { rewrite (RInt_ext _ (fun w => boole (fun v => 1 - v - w - 0) 0 (1 - w))).
    - rewrite RInt_boole; poly.
    - intros w _. rewrite (RInt_ext _ (fun v => 1 - v - w - 0)) by (intros; apply C). apply RInt_boole; poly. }
  assert (H : RInt (fun w => RInt (fun v => RInt (fun u => 1) (-1) 1) (-1) 1) (-1) 1 = 8).
  { rewrite (RInt_ext _ (fun w => 4)) by (intros; exact Q). rewrite RInt_boole; poly. }
  intros []; cbn [reference_integral reference_measure]; assumption || (rewrite C; lra).
Qed.

Lemma weights_positive : forall e g, In g (gauss_nodes e) -> 0 < snd g.
Proof.
  intros e g H. destruct e; cbn in H; repeat destruct H as [<-|H]; try contradiction; cbn; lra.
Qed.

Lemma gauss_interior : forall e g, In g (gauss_nodes e) -> in_open_reference e 0 (fst g).
Proof.
  pose proof g3_bounds as B. pose proof neg_g3 as N. fold g3 in *.
  intros e g H. unfold in_open_reference.
  destruct e; cbn [gauss_nodes Segment_Linear_gauss Segment_Quadratic_gauss Triangle_Linear_gauss
    Triangle_Quadratic_gauss Quad_Linear_gauss Quad_Quadratic_gauss RectangularQuad_Linear_gauss
    RectangularQuad_Quadratic_gauss Tetrahedron_Linear_gauss Tetrahedron_Quadratic_gauss
    Hexahedron_Linear_gauss Hexahedron_Quadratic_gauss RectangularHexahedron_Linear_gauss
    RectangularHexahedron_Quadratic_gauss In] in H;
  repeat destruct H as [<-|H]; try contradiction; cbn [fst simplex length CanonicalDimension];
  (split; [reflexivity|]);
  try (split; [|cbn [Rsum fold_right]; lra]);
  repeat (apply Forall_cons || apply Forall_nil); rewrite ?N; fold g3; lra.
Qed.

(** ** C18 *)
Lemma gauss_count : forall e, e <> RectangularQuad_Quadratic -> e <> RectangularHexahedron_Quadratic ->
  length (gauss_nodes e) = NumberOfGaussNodes e.
Proof. intros [] H1 H2; try reflexivity; congruence. Qed.

(** ** C22 *)
Lemma in_closed_interval : forall a x b, a <= b -> (IN_CLOSED_INTERVAL a x b = true <-> a <= x <= b).
Proof.
  intros a x b Hab. unfold IN_CLOSED_INTERVAL. split; intros H.
  - destruct (Rle_bool_spec ((x - a) * (x - b)) 0) as [Hl|]; [|discriminate]. split; nra.
  - apply Rle_bool_true. nra.
Qed.

Lemma rlt_bool : forall a b, Rlt_bool a b = true <-> a < b.
Proof.
  intros a b. split; intros H; [|apply Rlt_bool_true; exact H].
  destruct (Rlt_bool_spec a b); [assumption|discriminate].
Qed.

Lemma contains_tensor : forall e xi eps, simplex e = false ->
  e <> RectangularQuad_Linear -> e <> RectangularQuad_Quadratic ->
  0 <= eps -> length xi = CanonicalDimension e ->
  (contains_local e xi eps = Some true <-> in_reference e eps xi).
Proof.
  intros e xi eps Hs N1 N2 He Hxi. unfold in_reference. rewrite Hs.
  assert (I : forall x, IN_CLOSED_INTERVAL (-1 - eps) x (1 + eps) = true <-> -1 - eps <= x <= 1 + eps)
    by (intros; apply in_closed_interval; lra).
  destruct e; try discriminate Hs; try congruence; len_xi xi Hxi;
    unfold contains_local; cbn [nth];
    (split; [intros H; injection H as H | intros [_ H]; apply (f_equal Some)]);
    rewrite ?Bool.andb_true_iff, ?I in *;
    repeat match goal with
    | H : Forall _ _ |- _ => inversion H; clear H; subst
    end; try tauto;
    (split; [reflexivity|]); repeat (apply Forall_cons || apply Forall_nil); tauto.
Qed.

Lemma contains_simplex : forall e xi eps, simplex e = true -> length xi = CanonicalDimension e ->
  (contains_local e xi eps = Some true <-> in_open_reference e eps xi).
Proof.
  intros e xi eps Hs Hxi. unfold in_open_reference. rewrite Hs.
  destruct e; try discriminate Hs; len_xi xi Hxi;
    unfold contains_local; cbn [nth Rsum fold_right];
    (split; [intros H; injection H as H | intros [_ [H S]]; apply (f_equal Some)]);
    rewrite ?Bool.andb_true_iff, ?rlt_bool in *;
    repeat match goal with
    | H : Forall _ _ |- _ => inversion H; clear H; subst
    end; try (repeat split; lra);
    (split; [reflexivity|]); (split; [|lra]); repeat (apply Forall_cons || apply Forall_nil); lra.
Qed.

(** In terms of the shape functions of the linear simplices. *)
Lemma contains_simplex_shape : forall e xi eps, e = Triangle_Linear \/ e = Tetrahedron_Linear ->
  length xi = CanonicalDimension e ->
  (contains_local e xi eps = Some true <-> Forall (fun l => - eps < l) (L e xi)).
Proof.
  intros e xi eps He Hxi. destruct He as [-> | ->]; len_xi xi Hxi;
    unfold contains_local; cbn [nth L]; unfold Triangle_Linear_L, Tetrahedron_Linear_L; cbn [nth];
    (split; [intros H; injection H as H | intros H; apply (f_equal Some)]);
    rewrite ?Bool.andb_true_iff, ?rlt_bool in *;
    repeat match goal with
    | H : Forall _ _ |- _ => inversion H; clear H; subst
    end; try (repeat split; lra);
    repeat (apply Forall_cons || apply Forall_nil); lra.
Qed.

(** Consequence: a positive tolerance makes the closed reference domain contained. *)
Lemma contains_closed : forall e xi eps, 0 < eps -> length xi = CanonicalDimension e ->
  e <> RectangularQuad_Linear -> e <> RectangularQuad_Quadratic ->
  in_reference e 0 xi -> contains_local e xi eps = Some true.
Proof.
  intros e xi eps He Hxi N1 N2 H. destruct (simplex e) eqn:Hs.
  - apply contains_simplex; [assumption|assumption|]. destruct H as [_ H]. rewrite Hs in H.
    destruct H as [H S]. split; [assumption|]. rewrite Hs. split; [|lra].
    eapply Forall_impl; [|apply H]. cbn. intros; lra.
  - apply contains_tensor; [assumption|assumption|assumption|lra|assumption|]. destruct H as [_ H]. rewrite Hs in H.
    split; [assumption|]. rewrite Hs. eapply Forall_impl; [|apply H]. cbn. intros; lra.
Qed.
