(** Conjugate gradient: from the run to the sequence of states. *)

From mathcomp Require Import all_ssreflect all_algebra.
From Verif Require Import CGModel CGSpec CGProofs CGProofs2.
Set Implicit Arguments.
Unset Strict Implicit.
Unset Printing Implicit Defensive.
Import GRing.Theory Num.Theory Order.TTheory.
Local Open Scope ring_scope.

Section General.
Variable F : realFieldType.
Variable n : nat.
Variables (EPSILON zero tol : F) (precond : 'cV[F]_n -> 'cV[F]_n) (A : 'M[F]_n) (b x0 : 'cV[F]_n).

Definition thr := Num.max (tol * tol * squaredNorm b) zero.
Definition start : state F n :=
  let r := b - A *m x0 in St x0 r (precond r) (dot r (precond r)).
Definition seqst k := iter k (step A precond) start.

Inductive solve_spec (m : nat) : result F n -> Prop :=
| RhsZero : squaredNorm b < EPSILON -> solve_spec m (Defined (Outcome 0 false [::] 1))
| Already : EPSILON <= squaredNorm b -> squaredNorm (b - A *m x0) < thr ->
    solve_spec m (Defined (Outcome x0 false [::] 1))
| Looped : EPSILON <= squaredNorm b -> thr <= squaredNorm (b - A *m x0) ->
    solve_spec m (run A precond thr start m [::] 0).

Lemma solveP m : solve_spec m (solve EPSILON zero m tol precond A b x0).
Proof.
rewrite /solve; case: ltP => H; first exact: RhsZero.
by case: ltP => K; [apply: Already | apply: Looped].
Qed.

Lemma sr_true k : sr (seqst k) = b - A *m sx (seqst k).
Proof.
elim: k => [|k IH] //.
have -> : seqst k.+1 = step A precond (seqst k) by [].
by rewrite /step /= IH mulmxDr -scalemxAr opprD addrA.
Qed.

Lemma stops_prefix m K c k : stops A precond thr start m K c -> (k <= K)%N ->
  exists c', stops A precond thr start k k c'.
Proof.
move=> [S1 [S2 [S3 S4]]] Hk.
have S2' : forall j, (j < k)%N -> energy A (iter j (step A precond) start) != 0.
  by move=> j Hj; apply: S2; apply: leq_trans Hk.
have S3' : forall j, (j.+1 < k)%N ->
    thr <= sq (iter j.+1 (step A precond) start) /\ srho (iter j (step A precond) start) != 0.
  by move=> j Hj; apply: S3; apply: leq_trans Hk.
move: Hk; rewrite leq_eqVlt => /orP [/eqP E | Hk].
  rewrite -E in S4; exists c; split=> //; split=> //; split=> //.
  by case: c S4 => // [[_ S4]]; split.
exists false; split=> //; split=> //; split=> //; split=> // Hk0.
by case: k Hk0 Hk {S2' S3'} => [|k] // _ Hk; apply: S3.
Qed.

Lemma stops_iterate m K c k : EPSILON <= squaredNorm b -> thr <= squaredNorm (b - A *m x0) ->
  stops A precond thr start m K c -> (k <= K)%N ->
  exists c', solve EPSILON zero k tol precond A b x0 =
    Defined (Outcome (sx (seqst k)) c' (mkseq (fun j => sq (seqst j.+1)) k) k).
Proof.
move=> H1 H2 S Hk; have [c' S'] := stops_prefix S Hk; exists c'.
case: (solveP k) => [C|_ C|_ _]; first by rewrite ltNge H1 in C.
  by rewrite ltNge H2 in C.
by rewrite (stops_run _ _ S') add0n.
Qed.

(** Everything a defined result of the loop tells. *)
Lemma looped m o : EPSILON <= squaredNorm b -> thr <= squaredNorm (b - A *m x0) ->
  run A precond thr start m [::] 0 = Defined o ->
  exists2 K, stops A precond thr start m K (converged o) &
    [/\ solution o = sx (seqst K), squared_residuals o = mkseq (fun j => sq (seqst j.+1)) K & nb_iterations o = K].
Proof. by case: o => x c l nb H1 H2 /run_stops [K [S -> -> ->]]; exists K. Qed.
End General.

Lemma mkseq_take (T : Type) (f : nat -> T) k K : (k <= K)%N -> take k (mkseq f K) = mkseq f k.
Proof. by move=> H; rewrite /mkseq -map_take take_iota; congr map; congr iota; apply/minn_idPl. Qed.

Lemma iterations_ext (F : realFieldType) n (A : 'M[F]_n) (f g : 'cV[F]_n -> 'cV[F]_n) thr : f =1 g ->
  forall m x r p rho res it, iterations A f thr m x r p rho res it = iterations A g thr m x r p rho res it.
Proof. by move=> E; elim=> [|m IH] x r p rho res it //=; rewrite E; do !case: ifP => // _. Qed.
Lemma solve_ext (F : realFieldType) n (f g : 'cV[F]_n -> 'cV[F]_n) EPS zero m tol (A : 'M[F]_n) b x : f =1 g ->
  solve EPS zero m tol f A b x = solve EPS zero m tol g A b x.
Proof. by move=> E; rewrite /solve E; do !case: ifP => // _; apply: iterations_ext. Qed.

Section Spd.
Variable F : realFieldType.
Variable n : nat.
Variables (EPSILON zero tol : F) (A M : 'M[F]_n) (b x0 : 'cV[F]_n).
Hypothesis SA : spd A.
Hypothesis SM : spd M.
Hypothesis Z : 0 < zero.
Local Notation tau := (thr zero tol b).
Local Notation R := (R A M b x0).

Lemma thr_gt0 : 0 < tau.
Proof. by rewrite /thr lt_maxr Z orbT. Qed.
Lemma alive_of m K c : tau <= squaredNorm (b - A *m x0) -> stops A (mulmx M) tau (start (mulmx M) A b x0) m K c ->
  alive A M b x0 K.
Proof.
move=> H [_ [_ [S3 _]]] j Hj; rewrite -squaredNorm_gt0; apply: lt_le_trans thr_gt0 _.
by case: j Hj => [|j] Hj //; have [] := S3 j Hj.
Qed.

(** The loop cannot fail. *)
Lemma loop_defined m : tau <= squaredNorm (b - A *m x0) ->
  exists K c, stops A (mulmx M) tau (start (mulmx M) A b x0) m K c.
Proof.
move=> H.
have E k : iter k (step A (mulmx M)) (start (mulmx M) A b x0) = st A M b x0 k by [].
elim: m => [|m [K [c [S1 [S2 [S3 S4]]]]]].
  by exists 0%N, false; split=> //; split=> //; split.
  case: c S4 => [[K0 S4]|[K0 S4]].
    by exists K, true; split; [apply: leqW | split].
  rewrite {}K0 in S1 S2 S3 S4.
  have L : alive A M b x0 m.+1.
    move=> j Hj; rewrite -squaredNorm_gt0; apply: lt_le_trans thr_gt0 _.
    case: j Hj => [|j] Hj //; rewrite ltnS in Hj.
    move: Hj; rewrite leq_eqVlt => /orP [/eqP Ej | Hj]; last by have [] := S3 j Hj.
    by rewrite -Ej in S4; have [] := S4 isT.
  have [Hr He] := pos SA SM L.
  have T2 : forall j, (j < m.+1)%N -> energy A (iter j (step A (mulmx M)) (start (mulmx M) A b x0)) != 0.
    move=> j; rewrite ltnS leq_eqVlt => /orP [/eqP -> | Hj]; last by apply: S2.
    by rewrite E gt_eqF.
  have T3 : forall j, (j.+1 < m.+1)%N -> tau <= sq (iter j.+1 (step A (mulmx M)) (start (mulmx M) A b x0)) /\
      srho (iter j (step A (mulmx M)) (start (mulmx M) A b x0)) != 0.
    move=> j; rewrite ltnS leq_eqVlt => /orP [/eqP Ej | Hj]; last by apply: S3.
    by rewrite -Ej in S4; have := S4 isT.
  case: (ltP (sq (iter m.+1 (step A (mulmx M)) (start (mulmx M) A b x0))) tau) => C.
    by exists m.+1, true; split.
  exists m.+1, false; split=> //; split=> //; split=> //; split=> // _; split=> //.
  by rewrite -pred_Sn E gt_eqF.
Qed.
End Spd.
