(** Properties of the conjugate gradient solver. *)

From mathcomp Require Import all_ssreflect all_algebra.
From Verif Require Import CGModel CGSpec CGProofs CGProofs2 CGProofs3.
Set Implicit Arguments.
Unset Strict Implicit.
Unset Printing Implicit Defensive.
Import GRing.Theory Num.Theory Order.TTheory.
Local Open Scope ring_scope.

(** C44.  When the solve returns true, the squared residual of the vector it leaves is below the threshold. *)
Theorem C44_convergence_is_genuine :
  forall (F : realFieldType) n (EPSILON zero tol : F) precond (A : 'M[F]_n) b x0 max o,
    solve EPSILON zero max tol precond A b x0 = Defined o ->
    converged o ->
    residual A b (solution o) < Num.max (tol * tol * squaredNorm b) zero.
Proof.
move=> F n EPS zero tol pc A b x0 m o H C; move: H.
case: solveP => [_ [E]|_ _ [E]|H1 H2 /(looped H1 H2) [K S [-> _ _]]]; try by rewrite -E in C.
by move: S => [_ [_ [_]]]; rewrite C => [] [_]; rewrite /sq -[iter _ _ _]/(seqst pc A b x0 K) sr_true.
Qed.
Print Assumptions C44_convergence_is_genuine.

(** Recorded residuals: one per iteration, each of them the squared residual of the vector reached when the solve is
    limited to that many iterations; the last of these vectors is the result. *)
Theorem C44_recorded_residuals :
  forall (F : realFieldType) n (EPSILON zero tol : F) precond (A : 'M[F]_n) b x0 max o,
    solve EPSILON zero max tol precond A b x0 = Defined o ->
    let K := size (squared_residuals o) in
    let x_ := iterate EPSILON zero tol precond A b x0 in
    [/\ (K <= max)%N, solution o = x_ K &
        forall k, (k < K)%N -> nth 0 (squared_residuals o) k = residual A b (x_ k.+1)].
Proof.
move=> F n EPS zero tol pc A b x0 m o H K x_; move: H.
have I k c l nb y : solve EPS zero k tol pc A b x0 = Defined (Outcome y c l nb) -> x_ k = y.
  by rewrite /x_ /iterate => ->.
rewrite {1}/solve; case: ltP => H1.
  by move=> [E]; rewrite /K -E /=; split=> //; rewrite /x_ /iterate /solve H1.
have N : squaredNorm b < EPS = false by rewrite ltNge H1.
case: ltP => H2.
  by move=> [E]; rewrite /K -E /=; split=> //; rewrite /x_ /iterate /solve N H2.
move=> /(looped H1 H2) [K' S [-> E _]].
rewrite /K E size_mkseq; split; first by case: S.
  by have [c' Hs] := stops_iterate H1 H2 S (leqnn K'); rewrite (I _ _ _ _ _ Hs).
move=> k Hk; rewrite nth_mkseq // /residual.
by have [c' Hs] := stops_iterate H1 H2 S Hk; rewrite (I _ _ _ _ _ Hs) /sq sr_true.
Qed.
Print Assumptions C44_recorded_residuals.

(** The returned flag says that the last recorded residual is below the threshold; all others are not.  When it is
    false, either nothing was done or the iteration limit was used up.  The number of iterations given to the timer
    is the number of recorded residuals, except that 1 is given when nothing was done. *)
Theorem C44_flag :
  forall (F : realFieldType) n (EPSILON zero tol : F) precond (A : 'M[F]_n) b x0 max o,
    solve EPSILON zero max tol precond A b x0 = Defined o ->
    let threshold := Num.max (tol * tol * squaredNorm b) zero in
    let early := (squaredNorm b < EPSILON) || (residual A b x0 < threshold) in
    let K := size (squared_residuals o) in
    [/\ forall k, (k < K)%N -> (nth 0 (squared_residuals o) k < threshold) = converged o && (k.+1 == K),
        converged o -> (0 < K)%N,
        ~~ converged o -> if early then K = 0%N else K = max &
        nb_iterations o = if early then 1%N else K].
Proof.
move=> F n EPS zero tol pc A b x0 m o H t early K; move: H.
rewrite /early /K /residual {early K}; case: solveP.
- by move=> C [<-] /=; rewrite C.
- by move=> _ C [<-] /=; rewrite C orbT.
move=> H1 H2 /(looped H1 H2) [K S [_ -> ->]].
have -> : squaredNorm b < EPS = false by rewrite ltNge H1.
have -> : squaredNorm (b - A *m x0) < t = false by rewrite ltNge H2.
rewrite size_mkseq /=; move: S => [S1 [S2 [S3 S4]]]; split=> //.
- move=> k Hk; rewrite nth_mkseq //; case: (k.+1 =P K) => [E|N].
    rewrite andbT; rewrite -E in S4; case: (converged o) S4 => [[_ ->]|[_ S4]] //.
    by have [T _] := S4 isT; rewrite ltNge T.
  rewrite andbF ltNge; have [T _] : thr zero tol b <= sq (seqst pc A b x0 k.+1) /\ srho (seqst pc A b x0 k) != 0.
    by apply: S3; rewrite ltn_neqAle Hk andbT; apply/eqP.
  by rewrite T.
- by move=> C; rewrite C in S4; case: S4.
- by move=> C; rewrite (negbTE C) in S4; case: S4.
Qed.
Print Assumptions C44_flag.

(** The method without assembled matrix is the same computation with the projected operator and no preconditioner, so
    everything here applies to it. *)
Theorem C44_matrix_free :
  forall (F : realFieldType) n (EPSILON zero tol : F) (projection A : 'M[F]_n) b x0 max,
    free_solve EPSILON zero max tol projection A b x0 = solve EPSILON zero max tol id (projection *m A) b x0.
Proof.
move=> F n EPS zero tol Pr A b x0 m; rewrite /free_solve /solve mulmxA.
have E t : forall m x r p rho res it,
    free_iterations (Pr *m A) t m x r p rho res it = iterations (Pr *m A) id t m x r p rho res it.
  by elim=> [|k IH] x r p rho res it //=; rewrite IH.
by rewrite E.
Qed.
Print Assumptions C44_matrix_free.

(** C45.  Symmetric positive definite matrix A and preconditioner v -> M v, M symmetric positive definite.
    No division by zero is met. *)
Theorem C45_no_breakdown :
  forall (F : realFieldType) n (EPSILON zero tol : F) (A M : 'M[F]_n) b x0 max,
    spd A -> spd M -> 0 < zero ->
    exists o, solve EPSILON zero max tol (mulmx M) A b x0 = Defined o.
Proof.
move=> F n EPS zero tol A M b x0 m SA SM Z; case: solveP => [_|_ _|_ H2]; try by eexists.
by have [K [c S]] := loop_defined SA SM Z m H2; rewrite (stops_run _ _ S); eexists.
Qed.
Print Assumptions C45_no_breakdown.

Lemma no_rows (F : realFieldType) n (u v : 'cV[F]_n) : n = 0%N -> u = v.
Proof. by move=> N; apply/matrixP => i; case: i => i Hi; exfalso; move: Hi; rewrite N. Qed.

Lemma spd_run (F : realFieldType) n (EPS zero tol : F) (A M : 'M[F]_n) b x0 m o :
  0 < zero -> solve EPS zero m tol (mulmx M) A b x0 = Defined o ->
  (squared_residuals o = [::]) \/
  (alive A M b x0 (size (squared_residuals o)) /\
   forall k, (k <= size (squared_residuals o))%N -> iterate EPS zero tol (mulmx M) A b x0 k = X A M b x0 k).
Proof.
move=> Z; case: solveP => [_ [<-]|_ _ [<-]|H1 H2 /(looped H1 H2) [K S [_ -> _]]]; try by left.
right; rewrite size_mkseq; split; first exact: (alive_of Z H2 S).
by move=> k Hk; rewrite /iterate; have [c' ->] := stops_iterate H1 H2 S Hk.
Qed.

(** The increments of the iterates are nonzero and conjugate. *)
Theorem C45_conjugate_increments :
  forall (F : realFieldType) n (EPSILON zero tol : F) (A M : 'M[F]_n) b x0 max o,
    spd A -> spd M -> 0 < zero ->
    solve EPSILON zero max tol (mulmx M) A b x0 = Defined o ->
    let K := size (squared_residuals o) in
    let x_ := iterate EPSILON zero tol (mulmx M) A b x0 in
    (forall i, (i < K)%N -> x_ i.+1 != x_ i) /\
    (forall i j, (i < K)%N -> (j < K)%N -> i <> j ->
      dot (x_ i.+1 - x_ i) (A *m (x_ j.+1 - x_ j)) = 0).
Proof.
move=> F n EPS zero tol A M b x0 m o SA SM Z /(spd_run Z) [-> | [L E]] //=.
split=> [i Hi | i j Hi Hj N].
  rewrite !E // ?(ltnW Hi) //; apply: incr_neq0 => //; exact: alive_le L.
by rewrite !E // ?(ltnW Hi) ?(ltnW Hj) //; apply: (incr_conj SA SM Hi Hj N L).
Qed.
Print Assumptions C45_conjugate_increments.

(** Each iteration strictly decreases the energy norm of the error. *)
Theorem C45_monotone :
  forall (F : realFieldType) n (EPSILON zero tol : F) (A M : 'M[F]_n) b x0 max o xs,
    spd A -> spd M -> 0 < zero ->
    solve EPSILON zero max tol (mulmx M) A b x0 = Defined o ->
    A *m xs = b ->
    let x_ := iterate EPSILON zero tol (mulmx M) A b x0 in
    forall k, (k < size (squared_residuals o))%N ->
      energy_error A xs (x_ k.+1) < energy_error A xs (x_ k).
Proof.
move=> F n EPS zero tol A M b x0 m o xs SA SM Z /(spd_run Z) [-> | [L E]] //= Hxs k Hk.
by rewrite !E // ?(ltnW Hk) //; apply: energy_decr => //; apply: alive_le L.
Qed.
Print Assumptions C45_monotone.

(** The result after K iterations is the best approximation, in energy norm, that the Krylov space of order K
    offers. *)
Theorem C45_optimal :
  forall (F : realFieldType) n (EPSILON zero tol : F) (A M : 'M[F]_n) b x0 max o xs,
    spd A -> spd M -> 0 < zero ->
    EPSILON <= squaredNorm b ->
    solve EPSILON zero max tol (mulmx M) A b x0 = Defined o ->
    A *m xs = b ->
    let K := size (squared_residuals o) in
    in_krylov M A (b - A *m x0) K (solution o - x0) /\
    forall v, in_krylov M A (b - A *m x0) K v -> energy_error A xs (solution o) <= energy_error A xs (x0 + v).
Proof.
move=> F n EPS zero tol A M b x0 m o xs SA SM Z HE H Hxs K; move: H; rewrite /K {K}.
case: solveP => [|_ _ [<-]|H1 H2 /(looped H1 H2) [K S [-> -> _]]]; first by rewrite ltNge HE.
  split; first by exists (fun _ => 0); rewrite big_ord0 subrr.
  by move=> v [c ->]; rewrite big_ord0 addr0.
rewrite size_mkseq; split; first exact: kry_X.
by move=> v Hv; apply: (optimal SA SM Hxs (alive_of Z H2 S) Hv).
Qed.
Print Assumptions C45_optimal.

(** At most n iterations are done, whatever the limit; if n are done the result is the exact solution; if the limit is
    at least n, the result is below the threshold (unless the right-hand side is negligible). *)
Theorem C45_finite_termination :
  forall (F : realFieldType) n (EPSILON zero tol : F) (A M : 'M[F]_n) b x0 max o,
    spd A -> spd M -> 0 < zero ->
    solve EPSILON zero max tol (mulmx M) A b x0 = Defined o ->
    let K := size (squared_residuals o) in
    [/\ (K <= n)%N, K = n -> A *m solution o = b &
        (n <= max)%N -> EPSILON <= squaredNorm b ->
        residual A b (solution o) < Num.max (tol * tol * squaredNorm b) zero].
Proof.
move=> F n EPS zero tol A M b x0 m o SA SM Z H K.
have [E0 | [L E]] := spd_run Z H.
  have K0 : K = 0%N by rewrite /K E0.
  split; first by rewrite K0.
    by rewrite K0 => N; apply: no_rows.
  move=> Hn HE; move: H; case: solveP => [|_ C [<-]|H1 H2 /(looped H1 H2) [K' S [Hx Hr _]]] //.
    by rewrite ltNge HE.
  have K'0 : K' = 0%N by move: E0; rewrite Hr; case: (K').
  rewrite K'0 in S Hx; move: S => [_ [_ [_]]]; case: (converged o) => [[]|[M0 _]] //.
  rewrite -M0 leqn0 in Hn; rewrite /residual.
  have -> : b - A *m solution o = 0 by apply: no_rows; apply/eqP.
  by rewrite /squaredNorm dot0l; apply: thr_gt0.
have [D1 D2 D3] := C44_recorded_residuals H; rewrite -/K in D1 D2 D3 L E.
have D : b - A *m solution o = R A M b x0 K by rewrite D2 E // -R_true.
have HK : (K <= n)%N.
  rewrite leqNgt; apply/negP => C; have /eqP := L n C; apply; apply: (finite SA SM) => //.
  by apply: alive_le L; apply: ltnW.
split=> //.
  move=> N; apply/eqP; rewrite eq_sym -subr_eq0 D; apply/eqP; apply: (finite SA SM L).
  by rewrite N.
move=> Hn HE; have [F1 F2 F3 _] := C44_flag H; rewrite -/K in F1 F2 F3.
case C: (converged o); first exact: (C44_convergence_is_genuine H C).
rewrite /residual D; case T : (K == n).
  by rewrite (finite SA SM L) ?(eqP T) // /squaredNorm dot0l; apply: thr_gt0.
have : K = 0%N \/ K = m by have := F3 (negbT C); case: ifP => _; [left | right].
case=> [K0 | Km]; last first.
  by move: T; rewrite eqn_leq HK Km Hn.
have := F3 (negbT C); case: ifP => [/orP [] | _].
- by rewrite ltNge HE.
- by rewrite K0.
by move=> KK; move: T; rewrite eqn_leq HK KK Hn.
Qed.
Print Assumptions C45_finite_termination.
