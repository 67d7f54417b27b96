(** C89: one linear system for all the bodies of a scene. *)

From Coq Require Import Reals Lra Lia List Arith Bool.
From Verif Require Import GridGeoModel ShapeModel Sums SparseModel EigenMatrixModel EigenMatrixSpec EigenMatrixProperties.
From Verif Require Import SceneModel SceneSpec SceneProofs SceneProofs2.
Import ListNotations.
Open Scope nat_scope.

Lemma holds_final sc sym n A : well_formed sc -> anchored sc -> (sym = true -> symmetric_entries sc) -> holds_system sc sym n A ->
  n = dimension sc /\ forall i j, i < n -> j < n -> A i j = final_table sc i j.
Proof.
  intros W An Sy (rm & r & c & before & h & L & E & H). destruct (legal_assemble sc sym rm (r, c) (map fst before) W An Sy L) as (L' & Sz & Ph & T).
  rewrite <- E, <- map_app in L', Sz, Ph, T. destruct (C41_refines_partial rm r c (before ++ h) L') as (Q & P). cbv zeta in H, Q, P. destruct H as (<- & H & ->).
  rewrite Sz in Q. injection Q as Q1 Q2. split; [exact Q1|]. intros i j Hi Hj. rewrite Q2, <- Q1 in P. destruct (P i j Hi Hj) as (_ & R). rewrite R, Ph, T. reflexivity.
Qed.

(** The system of a scene exists: assembling it on a new matrix gives one. *)
Lemma holds_new sc sym : well_formed sc -> anchored sc -> (sym = true -> symmetric_entries sc) -> holds_system sc sym (dimension sc) (element (run (new_wrapper true 0 0) (combine (assemble sc sym) (repeat nothing_left (length (assemble sc sym)))))).
Proof.
  intros W An Sy. set (h := combine _ _). assert (E : map fst h = assemble sc sym).
  { unfold h. generalize (assemble sc sym) as l. clear. induction l as [|x l IH]; [reflexivity|]. cbn [length repeat combine map fst]. rewrite IH. reflexivity. }
  assert (L : legal true (0, 0) []) by (intros [|? ?] ? ? X; discriminate).
  destruct (legal_assemble sc sym true (0, 0) [] W An Sy L) as (L' & Sz & _ & _). cbn [app] in L', Sz. rewrite <- E in L', Sz.
  destruct (C41_refines_partial true 0 0 h L') as (Q & _). rewrite Sz in Q. cbv zeta in Q. injection Q as Q1 Q2.
  exists true, 0, 0, [], h. split; [exact L|]. split; [exact E|]. cbn [app]. auto.
Qed.

(** C89.  The assembled matrix has one row for each unknown of the states that are not mapped, and gives for any two motions
    of the scene the virtual work of all its force fields: those of the free states and those of the states mapped from them,
    directly or through other mapped states; force fields below a mapping that does not map the matrices are left out. *)
Theorem C89_virtual_work : forall sc symmetric n A (inside : nat -> bool) (w z : nat -> nat -> R),
  well_formed sc -> anchored sc -> (symmetric = true -> symmetric_entries sc) -> holds_system sc symmetric n A ->
  (forall s, inside s = true <-> counted sc s) -> admissible sc w -> admissible sc z ->
  n = dimension sc /\
  product n A (fun p => nth p (gather sc w) 0%R) (fun p => nth p (gather sc z) 0%R) = work sc inside w z.
Proof.
  intros sc sym n A inside w z W An Sy H I Aw Az. destruct (holds_final sc sym n A W An Sy H) as (-> & E). split; [reflexivity|].
  rewrite <- (product_assembled sc w z W Aw Az all_zero inside I eq_refl). apply product_ext. intros i j Hi Hj. rewrite (E i j Hi Hj). reflexivity.
Qed.
Print Assumptions C89_virtual_work.

(** The vectors of the system: each unknown of each state that is not mapped has its place, and no other place exists; writing the
    states to the global vector and reading it back gives the same values, in both directions. *)
Theorem C89_vectors : forall sc (u : nat -> nat -> R) (x : list R),
  length (gather sc u) = dimension sc /\
  (forall s i, s < length (states sc) -> is_free sc s = true -> i < size sc s -> scatter sc (gather sc u) s i = u s i) /\
  (length x = dimension sc -> gather sc (scatter sc x) = x) /\
  (forall s t i j, s < length (states sc) -> t < length (states sc) -> is_free sc s = true -> is_free sc t = true -> i < size sc s -> j < size sc t ->
     offset sc s + i = offset sc t + j -> s = t /\ i = j) /\
  (forall p, p < dimension sc -> exists s i, s < length (states sc) /\ is_free sc s = true /\ i < size sc s /\ p = offset sc s + i).
Proof.
  intros sc u x. split; [apply gather_length|]. split; [intros; unfold scatter; apply gather_nth; assumption|]. split; [|split; [intros; eapply offset_inj; eassumption|apply offset_onto]].
  intros L. apply (nth_ext _ _ 0%R 0%R); [rewrite gather_length; symmetry; exact L|]. intros p Hp. rewrite gather_length in Hp.
  destruct (offset_onto sc p Hp) as (s & i & Ls & F & Li & ->). rewrite gather_nth by assumption. reflexivity.
Qed.
Print Assumptions C89_vectors.

(** The bodies do not interact: the entries between the unknowns of two different states that are not mapped are zero, and a
    vector solves the system if and only if its part of each state solves the block of this state. *)
Theorem C89_blocks_independent : forall sc symmetric n A, well_formed sc -> anchored sc -> (symmetric = true -> symmetric_entries sc) -> holds_system sc symmetric n A ->
  (forall s t i j, s < length (states sc) -> t < length (states sc) -> is_free sc s = true -> is_free sc t = true -> i < size sc s -> j < size sc t -> s <> t ->
     A (offset sc s + i) (offset sc t + j) = 0%R) /\
  (forall x b, length x = n -> (solves n A x b <->
     forall s i, s < length (states sc) -> is_free sc s = true -> i < size sc s ->
       sum (size sc s) (fun j => (A (offset sc s + i)%nat (offset sc s + j)%nat * scatter sc x s j)%R) = scatter sc b s i)).
Proof.
  intros sc sym n A W An Sy H. destruct (holds_final sc sym n A W An Sy H) as (-> & E).
  assert (X : forall s t i j, s < length (states sc) -> t < length (states sc) -> is_free sc s = true -> is_free sc t = true -> i < size sc s -> j < size sc t -> s <> t ->
     A (offset sc s + i) (offset sc t + j) = 0%R).
  { intros s t i j Ls Lt Fs Ft Li Lj N. pose proof (offset_in sc s Ls Fs). pose proof (offset_in sc t Lt Ft). rewrite E by lia. apply final_cross; assumption. }
  split; [exact X|]. intros x b Lx.
  assert (Row : forall s i, s < length (states sc) -> is_free sc s = true -> i < size sc s ->
    sum (dimension sc) (fun j => (A (offset sc s + i)%nat j * nth j x 0)%R) = sum (size sc s) (fun j => (A (offset sc s + i)%nat (offset sc s + j)%nat * scatter sc x s j)%R)).
  { intros s i Ls F Li. apply (sum_block (dimension sc) (offset sc s) (size sc s) (fun j => (A (offset sc s + i)%nat j * nth j x 0)%R)); [apply offset_in; assumption|]. intros p Hp N. destruct (offset_onto sc p Hp) as (t & j & Lt & Ft & Lj & ->).
    assert (N' : s <> t) by (intros <-; lia). rewrite (X s t i j Ls Lt F Ft Li Lj N'). ring. }
  split.
  - intros (_ & S) s i Ls F Li. rewrite <- (Row s i Ls F Li). unfold scatter. apply S. pose proof (offset_in sc s Ls F). lia.
  - intros S. split; [exact Lx|]. intros p Hp. destruct (offset_onto sc p Hp) as (s & i & Ls & F & Li & ->). rewrite (Row s i Ls F Li). apply S; assumption.
Qed.
Print Assumptions C89_blocks_independent.

(** A fixed unknown has the row and the column of the identity, so that a solution is there what the right-hand side is (zero,
    once the forces are projected); this for the bodies on which no state is mapped with its matrices. *)
Theorem C89_fixed_partial : forall sc symmetric n A, well_formed sc -> anchored sc -> (symmetric = true -> symmetric_entries sc) -> holds_system sc symmetric n A ->
  forall s d, is_free sc s = true -> is_fixed sc s d -> (forall t J, counted sc t -> mapping (state_at sc t) <> Some (s, true, J)) ->
  (forall p, p < n -> A (offset sc s + d) p = (if (offset sc s + d =? p)%nat then 1 else 0)%R /\ A p (offset sc s + d) = (if (offset sc s + d =? p)%nat then 1 else 0)%R) /\
  (forall x b, solves n A x b -> scatter sc x s d = scatter sc b s d).
Proof.
  intros sc sym n A W An Sy H s d F X N. destruct (holds_final sc sym n A W An Sy H) as (-> & E).
  assert (D : s < length (states sc) /\ d < size sc s).
  { destruct X as (groups & g & Hc & Hg & Hd). destruct (proj2 (proj2 W) s groups Hc) as (Ls & R). split; [exact Ls|exact (R g d Hg Hd)]. }
  destruct D as (Ls & Ld). pose proof (offset_in sc s Ls F) as O. pose proof (final_fixed sc s d W F X Ld N) as U.
  assert (V : forall p, p < dimension sc -> A (offset sc s + d) p = (if (offset sc s + d =? p)%nat then 1 else 0)%R /\ A p (offset sc s + d) = (if (offset sc s + d =? p)%nat then 1 else 0)%R).
  { intros p Hp. rewrite !E by lia. apply U. }
  split; [exact V|]. intros x b (Lx & S). unfold scatter. rewrite <- (S (offset sc s + d)) by lia.
  rewrite (sum_ext _ _ (fun j => if Nat.eqb (offset sc s + d) j then nth j x 0%R else 0%R)).
  - symmetry. apply (sum_delta (dimension sc) (offset sc s + d) (fun j => nth j x 0%R)). lia.
  - intros j Hj. rewrite (proj1 (V j Hj)). destruct (Nat.eqb (offset sc s + d) j); ring.
Qed.
Print Assumptions C89_fixed_partial.

(** For the others the claim fails, because the matrices of the mapped states are added after the constraints: a body of two unknowns,
    the first one fixed, with any stiffness on the second; a state of one unknown mapped from both, with any stiffness.  The right-hand
    side is zero on the fixed unknown, yet every solution moves it. *)
Definition dragged (k k1 c0 c1 : R) : scene :=
  {| states := [{| unknowns := 2; mapping := None |}; {| unknowns := 1; mapping := Some (0, true, fun _ j => if j =? 0 then c0 else c1) |}];
     force_fields := [(0, [(0, 0, k1); (1, 1, k1)]); (1, [(0, 0, k)])];
     constraints := [(0, [[0]])] |}.
Lemma dragged_fine k k1 c0 c1 : let sc := dragged k k1 c0 c1 in well_formed sc /\ anchored sc /\ symmetric_entries sc.
Proof.
  cbv zeta. split; [|split].
  - split; [|split].
    + intros [|[|s]] p m J Ls E; cbn in Ls, E; try lia; [discriminate|]. injection E as <- _ _. lia.
    + intros s entries [H|[H|[]]]; injection H as <- <-; (split; [cbn; lia|]); intros i j v H; cbn in H; repeat (destruct H as [H|H]; [injection H as <- <- <-; cbn; lia|]); destruct H.
    + intros s groups [H|[]]; injection H as <- <-. split; [cbn; lia|]. intros g d [<- |[]] [<- |[]]. cbn. lia.
  - intros s d F (groups & g & [H|[]] & Hg & Hd). injection H as <- <-. destruct Hg as [<- |[]]. destruct Hd as [<- |[]]. exists [(0, 0, k1); (1, 1, k1)], k1. cbn. auto.
  - intros s i j F (entries & v & H & Hin). exists entries, v. split; [exact H|]. destruct H as [H|[H|[]]]; injection H as <- <-; cbn in Hin |- *;
      repeat (destruct Hin as [Hin|Hin]; [injection Hin as <- <- <-; auto|]); destruct Hin.
Qed.
Theorem C89_mapped_moves_fixed_refuted : forall k k1 c0 c1 f symmetric n A x, (k <> 0)%R -> (c0 <> 0)%R -> (c1 <> 0)%R -> (f <> 0)%R ->
  let sc := dragged k k1 c0 c1 in
  holds_system sc symmetric n A -> solves n A x [0%R; f] ->
  is_fixed sc 0 0 /\ scatter sc [0%R; f] 0 0 = 0%R /\ scatter sc x 0 0 <> 0%R.
Proof.
  intros k k1 c0 c1 f sym n A x Hk H0 H1 Hf sc H (Lx & S). destruct (dragged_fine k k1 c0 c1) as (W & An & Sy). fold sc in W, An, Sy.
  destruct (holds_final sc sym n A W An (fun _ => Sy) H) as (-> & E). change (dimension sc) with 2 in *.
  split; [exists [[0]], [0]; cbn; auto|]. split; [reflexivity|]. unfold scatter. change (offset sc 0 + 0) with 0. intros X0.
  pose proof (S 0 ltac:(lia)) as S0. pose proof (S 1 ltac:(lia)) as S1. unfold sum in S0, S1. cbn [seq map Rsum fold_right nth] in S0, S1.
  rewrite !E in S0, S1 by lia. rewrite X0 in S0, S1.
  assert (T01 : final_table sc 0 1 = (c0 * k * c1)%R) by (cbv -[Rplus Rmult IZR]; ring).
  assert (T11 : final_table sc 1 1 = (k1 + c1 * k * c1)%R) by (cbv -[Rplus Rmult IZR]; ring).
  rewrite T01 in S0. rewrite T11 in S1. assert (X1 : nth 1 x 0%R = 0%R).
  { apply (Rmult_eq_reg_l (c0 * k * c1)); [cbn in S0; lra|]. repeat apply Rmult_integral_contrapositive_currified; assumption. }
  cbn in S1. rewrite X1 in S1. lra.
Qed.
Print Assumptions C89_mapped_moves_fixed_refuted.

(** ** Witness: two bodies, the first with a fixed unknown and a chain of two mapped states, the second with a state whose
    matrices are not mapped. *)
Definition two_bodies : scene :=
  {| states := [{| unknowns := 2; mapping := None |}; {| unknowns := 1; mapping := Some (0, true, fun _ _ => 1%R) |};
                {| unknowns := 1; mapping := Some (1, true, fun _ _ => 2%R) |}; {| unknowns := 1; mapping := None |};
                {| unknowns := 1; mapping := Some (3, false, fun _ _ => 1%R) |}];
     force_fields := [(0, [(0, 0, 3%R); (1, 1, 3%R)]); (2, [(0, 0, 5%R)]); (3, [(0, 0, 7%R)]); (4, [(0, 0, 11%R)])];
     constraints := [(0, [[0]])] |}.
Definition some_motion (s i : nat) : R := match s, i with 0, 1 => 1 | 1, 0 => 1 | 2, 0 => 2 | 3, 0 => 1 | _, _ => 0 end%R.
Example C89_example : well_formed two_bodies /\ anchored two_bodies /\ symmetric_entries two_bodies /\ admissible two_bodies some_motion /\
  (forall s, (s <? 4) = true <-> counted two_bodies s) /\ work two_bodies (fun s => s <? 4) some_motion some_motion = 30%R /\
  dimension two_bodies = 3 /\ exists A, holds_system two_bodies true 3 A.
Proof.
  assert (W : well_formed two_bodies).
  { split; [|split].
    - intros [|[|[|[|[|s]]]]] p m J Ls E; cbn in Ls, E; try lia; try discriminate; injection E as <- _ _; lia.
    - intros s entries H. cbn in H. repeat (destruct H as [H|H]; [injection H as <- <-; split; [cbn; lia|]; intros i j v H; cbn in H;
        repeat (destruct H as [H|H]; [injection H as <- <- <-; cbn; lia|]); destruct H|]). destruct H.
    - intros s groups [H|[]]; injection H as <- <-. split; [cbn; lia|]. intros g d [<- |[]] [<- |[]]. cbn. lia. }
  assert (An : anchored two_bodies).
  { intros s d F (groups & g & [H|[]] & Hg & Hd). injection H as <- <-. destruct Hg as [<- |[]]. destruct Hd as [<- |[]]. exists [(0, 0, 3%R); (1, 1, 3%R)], 3%R. cbn. auto. }
  assert (Sy : symmetric_entries two_bodies).
  { intros s i j F (entries & v & H & Hin). exists entries, v. split; [exact H|]. cbn in H. repeat (destruct H as [H|H]; [injection H as <- <-; cbn in Hin |- *;
      repeat (destruct Hin as [Hin|Hin]; [injection Hin as <- <- <-; auto|]); destruct Hin|]). destruct H. }
  split; [exact W|]. split; [exact An|]. split; [exact Sy|].
  assert (C : forall s, (s <? 4) = true <-> counted two_bodies s).
  { intros s. rewrite <- (visited_counted two_bodies s W). destruct s as [|[|[|[|[|s]]]]]; cbn; try tauto. split; [discriminate|]. unfold visited. cbn. destruct s; discriminate. }
  split.
  - split.
    + intros s p J i Hs E Hi. apply C, Nat.ltb_lt in Hs. destruct s as [|[|[|[|s]]]]; [| | | |lia]; cbn in E; try discriminate; injection E as <- <-; cbn in Hi; (destruct i as [|i]; [|lia]); unfold sum; cbn; ring.
    + intros s d _ (groups & g & [H|[]] & Hg & Hd). injection H as <- <-. destruct Hg as [<- |[]]. destruct Hd as [<- |[]]. reflexivity.
  - split; [exact C|]. split; [cbn; ring|]. split; [reflexivity|]. eexists. apply (holds_new two_bodies true W An (fun _ => Sy)).
Qed.
(** The hypotheses of the refutation are met too, and such systems have solutions. *)
Example C89_dragged_example : exists A, holds_system (dragged 1 1 1 1) true 2 A /\ solves 2 A [(- (1 / 3))%R; (2 / 3)%R] [0%R; 1%R].
Proof.
  destruct (dragged_fine 1 1 1 1) as (W & An & Sy). cbv zeta in W, An, Sy. pose proof (holds_new (dragged 1 1 1 1) true W An (fun _ => Sy)) as H.
  change (dimension (dragged 1 1 1 1)) with 2 in H. set (A := element _) in H. exists A. split; [exact H|].
  destruct (holds_final _ true 2 A W An (fun _ => Sy) H) as (_ & E). clearbody A. split; [reflexivity|]. intros [|[|i]] Hi; [| |lia]; unfold sum; cbn [seq map Rsum fold_right nth];
    rewrite !E by lia; cbv -[Rplus Rmult IZR Ropp Rdiv Rinv Rminus]; field.
Qed.
