(** Proofs about the conjugate gradient solver: the run as a sequence of states. *)

From mathcomp Require Import all_ssreflect all_algebra.
From Verif Require Import CGModel CGSpec.
Set Implicit Arguments.
Unset Strict Implicit.
Unset Printing Implicit Defensive.
Import GRing.Theory Num.Theory Order.TTheory.
Local Open Scope ring_scope.

Section Dot.
Variable F : realFieldType.
Variable n : nat.
Implicit Types (u v w : 'cV[F]_n) (A : 'M[F]_n).

Lemma dotC u v : dot u v = dot v u.
Proof. by rewrite /dot; apply: eq_bigr => i _; rewrite mulrC. Qed.
Lemma dotDl u v w : dot (u + v) w = dot u w + dot v w.
Proof. by rewrite /dot -big_split; apply: eq_bigr => i _; rewrite /= mxE mulrDl. Qed.
Lemma dotZl a u w : dot (a *: u) w = a * dot u w.
Proof. by rewrite /dot mulr_sumr; apply: eq_bigr => i _; rewrite mxE mulrA. Qed.
Lemma dotNl u w : dot (- u) w = - dot u w.
Proof. by rewrite -scaleN1r dotZl mulN1r. Qed.
Lemma dotBl u v w : dot (u - v) w = dot u w - dot v w.
Proof. by rewrite dotDl dotNl. Qed.
Lemma dotDr u v w : dot u (v + w) = dot u v + dot u w.
Proof. by rewrite dotC dotDl !(dotC u). Qed.
Lemma dotZr a u w : dot u (a *: w) = a * dot u w.
Proof. by rewrite dotC dotZl (dotC u). Qed.
Lemma dotNr u w : dot u (- w) = - dot u w.
Proof. by rewrite dotC dotNl (dotC u). Qed.
Lemma dotBr u v w : dot u (v - w) = dot u v - dot u w.
Proof. by rewrite dotDr dotNr. Qed.
Lemma dot0l u : dot 0 u = 0.
Proof. by rewrite -(scale0r u) dotZl mul0r. Qed.
Lemma dot0r u : dot u 0 = 0.
Proof. by rewrite dotC dot0l. Qed.
Lemma dot_sumr k (f : nat -> 'cV[F]_n) u : dot u (\sum_(i < k) f i) = \sum_(i < k) dot u (f i).
Proof.
elim: k => [|k IH]; first by rewrite !big_ord0 dot0r.
by rewrite !big_ord_recr /= dotDr IH.
Qed.
Lemma dotE u v : dot u v = (u^T *m v) 0 0.
Proof. by rewrite mxE /dot; apply: eq_bigr => i _; rewrite mxE. Qed.
Lemma dot_tr A u v : dot u (A *m v) = dot (A^T *m u) v.
Proof. by rewrite !dotE trmx_mul trmxK mulmxA. Qed.
Lemma dot_sym A u v : A^T = A -> dot u (A *m v) = dot (A *m u) v.
Proof. by move=> S; rewrite dot_tr S. Qed.

Lemma squaredNorm_ge0 u : 0 <= squaredNorm u.
Proof. by apply: sumr_ge0 => i _; rewrite -expr2 sqr_ge0. Qed.
Lemma squaredNorm_eq0 u : (squaredNorm u == 0) = (u == 0).
Proof.
apply/idP/idP => [H|/eqP ->]; last by rewrite /squaredNorm dot0l.
have K : forall i, u i 0 = 0.
  move=> i; move: H; rewrite /squaredNorm /dot psumr_eq0 => [|j _]; last by rewrite -expr2 sqr_ge0.
  by move/allP => /(_ i (mem_index_enum i)) /=; rewrite mulf_eq0 orbb => /eqP.
by apply/eqP/matrixP => i j; rewrite (ord1 j) mxE K.
Qed.
Lemma squaredNorm_gt0 u : (0 < squaredNorm u) = (u != 0).
Proof. by rewrite lt_neqAle squaredNorm_ge0 andbT eq_sym squaredNorm_eq0. Qed.
End Dot.

(** The sequence of states. *)
Section Run.
Variable F : realFieldType.
Variable n : nat.
Variable A : 'M[F]_n.
Variable precond : 'cV[F]_n -> 'cV[F]_n.
Variable thr : F.

Record state := St { sx : 'cV[F]_n; sr : 'cV[F]_n; sp : 'cV[F]_n; srho : F }.
Definition energy s := dot (sp s) (A *m sp s).
Definition step s :=
  let alpha := srho s / energy s in
  let r := sr s - alpha *: (A *m sp s) in
  let rho := dot r (precond r) in
  St (sx s + alpha *: sp s) r (precond r + (rho / srho s) *: sp s) rho.
Definition sq s := squaredNorm (sr s).

(** The run from s stops after K steps, with the flag c. *)
Definition stops (s : state) (fuel K : nat) (c : bool) : Prop :=
  (K <= fuel)%N /\
  (forall j, (j < K)%N -> energy (iter j step s) != 0) /\
  (forall j, (j.+1 < K)%N -> thr <= sq (iter j.+1 step s) /\ srho (iter j step s) != 0) /\
  (if c then (0 < K)%N /\ sq (iter K step s) < thr
   else K = fuel /\ ((0 < K)%N -> thr <= sq (iter K step s) /\ srho (iter K.-1 step s) != 0)).

Definition run s fuel res it := iterations A precond thr fuel (sx s) (sr s) (sp s) (srho s) res it.

Lemma run_S s fuel res it :
  run s fuel.+1 res it =
  if energy s == 0 then Undefined
  else if sq (step s) < thr then Defined (Outcome (sx (step s)) true (rcons res (sq (step s))) it.+1)
  else if srho s == 0 then Undefined
  else run (step s) fuel (rcons res (sq (step s))) it.+1.
Proof. by []. Qed.

Lemma mkseq_step (g : nat -> F) K : g 0%N :: mkseq (fun j => g j.+1) K = mkseq g K.+1.
Proof. by rewrite /mkseq /= -[in RHS]add1n -[1%N]addn0 iotaDl -map_comp. Qed.

Lemma run_stops fuel : forall s res it x c l nb,
  run s fuel res it = Defined (Outcome x c l nb) ->
  exists K, [/\ stops s fuel K c, x = sx (iter K step s), l = res ++ mkseq (fun j => sq (iter j.+1 step s)) K &
    nb = (it + K)%N].
Proof.
elim: fuel => [|fuel IH] s res it x c l nb.
  move=> [<- <- <- <-]; exists 0%N; split; rewrite ?addn0 ?cats0 //.
rewrite run_S; case: eqP => // /eqP E; case: ltP => C.
  move=> [<- <- <- <-]; exists 1%N; split; rewrite ?addn1 //; last by rewrite /= cats1.
  by split=> //; split; first by case.
case: eqP => // /eqP R /IH [K [[S1 [S2 [S3 S4]]] Hx Hl Hn]].
exists K.+1; split; last by rewrite Hn addnS addSn.
- split=> //; split; first by case=> [|j] // Hj; rewrite iterSr; apply: S2.
  split.
    case=> [|j] Hj; first by split.
    by have := S3 j Hj; rewrite -!iterSr.
  move: S4; case: c => [[K0 S4]|[K0 S4]]; first by rewrite iterSr.
  split; first by rewrite K0.
  case: K K0 S4 {S1 S2 S3 Hx Hl Hn} => [|K] K0 S4 _ /=; first by split.
  by have [] := S4 isT; rewrite -!iterSr.
- by rewrite Hx -iterSr.
- rewrite Hl -cats1 -catA; congr (_ ++ _).
  rewrite -(mkseq_step (fun j => sq (iter j.+1 step s))) /=; congr (_ :: _).
  by apply: eq_map => j; rewrite -iterSr.
Qed.

Lemma stops_run fuel : forall s res it K c,
  stops s fuel K c ->
  run s fuel res it = Defined (Outcome (sx (iter K step s)) c (res ++ mkseq (fun j => sq (iter j.+1 step s)) K) (it + K)).
Proof.
elim: fuel => [|fuel IH] s res it K c [S1 [S2 [S3 S4]]].
  move: S1; rewrite leqn0 => /eqP K0; rewrite K0 in S4 *.
  by case: c S4 => [[]|] //= _; rewrite /run /= cats0 addn0.
rewrite run_S; case: K S1 S2 S3 S4 => [|K] S1 S2 S3 S4; first by case: c S4 => [[]|[]].
rewrite (negbTE (S2 0%N isT)) /=.
case: K S1 S2 S3 S4 => [|K] S1 S2 S3 S4.
  case: c S4 => [[_ S4]|[K0 S4]] /=; first by move: S4 => /= ->; rewrite cats1 addn1.
  case: K0 => <-; have [T R] := S4 isT; move: T R => /= T R.
  by rewrite ltNge T /= (negbTE R) /run /= cats1 addn1.
have [T R] := S3 0%N isT; move: T R => /= T R.
rewrite ltNge T /= (negbTE R) (IH _ _ _ K.+1 c); last first.
  split=> //; split; first by move=> j Hj; rewrite -iterSr; apply: S2.
  split; first by move=> j Hj; rewrite -!iterSr; apply: S3.
  case: c S4 => [[_ S4]|[K0 S4]]; first by rewrite -iterSr.
  case: K0 => K0; split=> // _; have [] := S4 isT.
  by rewrite -[K.+2.-1]/(K.+1) -!iterSr.
rewrite -iterSr; congr (Defined (Outcome _ _ _ _)); last by rewrite addSn -addnS.
rewrite -cats1 -catA; congr (_ ++ _).
rewrite -(mkseq_step (fun j => sq (iter j.+1 step s)) K.+1) /=; congr (_ :: _).
by apply: eq_map => j; rewrite -iterSr.
Qed.
End Run.
