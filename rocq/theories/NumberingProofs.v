(** Proofs for C103: the symmetries of the reference elements. *)

From Coq Require Import ZArith Reals Lra Lia.
From Coquelicot Require Import Coquelicot.
From Coq Require Import List Arith Bool Permutation.
From Verif Require Import GridGeoModel ShapeModel ShapeSpec ShapeProofs LinAlg LinAlgProofs RectModel BarycentricModel TensorModel TensorSpec MaterialModel MaterialSpec MaterialProofs MappingSpec HyperModel HyperProofs NumberingSpec.
Import ListNotations.
Open Scope R_scope.

Ltac expand := lazy -[Rplus Rmult Ropp Rminus Rdiv Rinv IZR sqrt].

Lemma symmetry_shift e s : In s (symmetries e) -> CanonicalDimension e = 3%nat.
Proof. destruct e; cbn [symmetries]; intros H; try contradiction H; reflexivity. Qed.

(** The symmetries carry nodes to nodes. *)
Lemma symmetry_nodes e s : In s (symmetries e) -> map (carried s) (canonical_nodes e) = map (fun a => nth a (canonical_nodes e) []) (order s).
Proof.
  intros H. destruct e; cbn [symmetries] in H; try contradiction H;
  repeat (destruct H as [<-|H]; [expand; repeat match goal with |- _ :: _ = _ :: _ => apply f_equal2 | |- [] = [] => reflexivity end; field|]); contradiction H.
Qed.

Lemma symmetry_order e s : In s (symmetries e) -> Permutation (order s) (seq 0 (NumberOfNodes e)).
Proof.
  assert (P : forall l n, (length l =? n)%nat && forallb (fun i => existsb (Nat.eqb i) l) (seq 0 n) = true -> Permutation l (seq 0 n)).
  { intros l n Hb. apply andb_prop in Hb. destruct Hb as [Hl Hf]. apply Nat.eqb_eq in Hl. symmetry. apply NoDup_Permutation_bis; [apply seq_NoDup|rewrite seq_length; lia|].
    intros i Hi. rewrite forallb_forall in Hf. specialize (Hf i Hi). apply existsb_exists in Hf. destruct Hf as (j & Hj & E). apply Nat.eqb_eq in E. subst j. exact Hj. }
  intros H. apply P. destruct e; cbn [symmetries] in H; try contradiction H; repeat (destruct H as [<-|H]; [reflexivity|]); contradiction H.
Qed.

Lemma symmetry_turn e s : In s (symmetries e) -> matrix3 (turn s) /\ (det3 (entries (turn s)) = 1 \/ det3 (entries (turn s)) = -1).
Proof.
  intros H. split.
  - destruct e; cbn [symmetries] in H; try contradiction H; repeat (destruct H as [<-|H]; [split; [reflexivity|repeat constructor]|]); contradiction H.
  - destruct e; cbn [symmetries] in H; try contradiction H; repeat (destruct H as [<-|H]; [unfold det3; expand; first [left; ring | right; ring]|]); contradiction H.
Qed.

(** The quadrature points are the same set. *)
Lemma permuted_indices (A : Type) (l : list A) (x : A) sigma : (length sigma =? length l)%nat && forallb (fun i => existsb (Nat.eqb i) sigma) (seq 0 (length l)) = true ->
  Permutation (map (fun i => nth i l x) sigma) l.
Proof.
  intros Hb. apply andb_prop in Hb. destruct Hb as [Hl Hf]. apply Nat.eqb_eq in Hl.
  assert (P : Permutation sigma (seq 0 (length l))).
  { symmetry. apply NoDup_Permutation_bis; [apply seq_NoDup|rewrite seq_length; lia|].
    intros i Hi. rewrite forallb_forall in Hf. specialize (Hf i Hi). apply existsb_exists in Hf. destruct Hf as (j & Hj & E). apply Nat.eqb_eq in E. subst j. exact Hj. }
  rewrite P. assert (E : map (fun i => nth i l x) (seq 0 (length l)) = l); [|rewrite E; reflexivity].
  clear. induction l as [|a l IH]; [reflexivity|]. cbn [length seq map nth]. rewrite <- seq_shift, map_map. f_equal. exact IH.
Qed.
Definition carried_point (s : symmetry) (g : list R * R) : list R * R := (carried s (fst g), snd g).
Ltac points := unfold carried_point; expand; repeat match goal with |- _ :: _ = _ :: _ => apply f_equal2 | |- (_, _) = (_, _) => apply f_equal2 | |- [] = [] => reflexivity end;
  first [reflexivity | unfold Rdiv; ring | lra].
Ltac by_indices sigma := match goal with |- Permutation ?a ?l => replace a with (map (fun i => nth i l ([], 0)) sigma); [apply permuted_indices; reflexivity|points] end.
Lemma symmetry_points e s : In s (symmetries e) -> Permutation (map (carried_point s) (gauss_nodes e)) (gauss_nodes e).
Proof.
  intros H. destruct e; cbn [symmetries] in H; try contradiction H.
  - destruct H as [<-|[<-|[] ] ]; by_indices [0%nat].
  - destruct H as [<-|[<-|[] ] ]; [by_indices [3; 1; 2; 0]%nat|by_indices [3; 0; 1; 2]%nat].
  - destruct H as [<-|[<-|[<-|[] ] ] ]; [by_indices [1; 3; 0; 2; 5; 7; 4; 6]%nat|by_indices [2; 3; 6; 7; 0; 1; 4; 5]%nat|by_indices [1; 0; 3; 2; 5; 4; 7; 6]%nat].
  - destruct H as [<-|[<-|[<-|[] ] ] ]; [by_indices [1; 3; 0; 2; 5; 7; 4; 6]%nat|by_indices [2; 3; 6; 7; 0; 1; 4; 5]%nat|by_indices [1; 0; 3; 2; 5; 4; 7; 6]%nat].
Qed.

(** The shape functions are carried with the nodes: the derivatives of N_a at xi are those of N_(order a) at the carried point, composed with the turn. *)
Lemma symmetry_derivatives e s u v w : In s (symmetries e) ->
  dL e [u; v; w] = map (fun a => map (fun l => sum3 (fun k => entries (dL e (carried s [u; v; w])) a k * entries (turn s) k l)) (seq 0 3)) (order s).
Proof.
  intros H. destruct e; cbn [symmetries] in H; try contradiction H;
  repeat (destruct H as [<-|H]; [expand; repeat match goal with |- _ :: _ = _ :: _ => apply f_equal2 | |- [] = [] => reflexivity end; field|]); contradiction H.
Qed.
