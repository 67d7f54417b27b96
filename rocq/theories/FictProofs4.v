(** Proofs about the fictitious grid, continued: the clustering in regions (C36), for any symmetric neighbour relation. *)

From Coq Require Import ZArith Lia Relations.
From Coq Require Import List Arith Bool.
From Verif Require Import FictModel FictProofs.
Import ListNotations.
Open Scope nat_scope.

Lemma ptr_eqb_spec : forall p q, reflect (p = q) (ptr_eqb p q).
Proof.
  intros [t p] [s q]. unfold ptr_eqb. cbn [fst snd].
  destruct (Nat.eqb_spec t s) as [->|N]; simpl; [|constructor; intros E; inversion E; contradiction].
  destruct (list_eq_dec Nat.eq_dec p q) as [->|N]; constructor; [reflexivity|intros E; inversion E; contradiction].
Qed.
Lemma assign_same : forall (B : Type) (f : ptr -> B) p b, assign f p b p = b.
Proof. intros. unfold assign. destruct (ptr_eqb_spec p p); [reflexivity|contradiction]. Qed.
Lemma assign_other : forall (B : Type) (f : ptr -> B) p b q, p <> q -> assign f p b q = f q.
Proof. intros. unfold assign. destruct (ptr_eqb_spec p q); [contradiction|reflexivity]. Qed.
Lemma type_eqb_spec : forall a b, reflect (a = b) (type_eqb a b).
Proof. intros [] []; constructor; congruence. Qed.
Definition ptr_dec (p q : ptr) : {p = q} + {p <> q}.
Proof. destruct (ptr_eqb_spec p q); [left|right]; assumption. Defined.

Lemma update_nth_last : forall (A : Type) (f : A -> A) old a, update_nth (length old) f (old ++ [a]) = old ++ [f a].
Proof.
  intros A f old a. unfold update_nth.
  assert (G : forall k, mapi (fun i b => if i =? k + length old then f b else b) k (old ++ [a]) = old ++ [f a]).
  { induction old as [|b old IH]; intros k; simpl.
    - rewrite Nat.add_0_r, Nat.eqb_refl. reflexivity.
    - destruct (Nat.eqb_spec k (k + S (length old))); [lia|]. f_equal. specialize (IH (S k)).
      replace (k + S (length old)) with (S k + length old) by lia. exact IH. }
  exact (G 0).
Qed.

Section Regions.
Variable faces : ptr -> option (list (list ptr)).
Variable type : ptr -> cell_type.
Variable leaves : list ptr.

Definition nb (p : ptr) : list ptr := match faces p with Some fs => concat fs | None => [] end.
Hypothesis Hfaces : forall p, In p leaves -> exists fs, faces p = Some fs.
Hypothesis Hnb : forall p q, In p leaves -> In q (nb p) -> In q leaves /\ In p (nb q).

Definition adj (p q : ptr) : Prop := In p leaves /\ In q (nb p) /\ type p = type q.
Definition conn : ptr -> ptr -> Prop := clos_refl_trans ptr adj.

(** The cell is on the boundary of its region: a face without neighbour or a neighbour of another type. *)
Definition face_flag (ty : cell_type) (f : list ptr) : bool :=
  match f with [] => true | _ => existsb (fun q => negb (type_eqb (type q) ty)) f end.
Definition flag_of (p : ptr) : bool :=
  match faces p with Some fs => existsb (face_flag (type p)) fs | None => false end.

Lemma adj_sym : forall p q, adj p q -> adj q p.
Proof. intros p q (H1 & H2 & H3). destruct (Hnb p q H1 H2) as [H4 H5]. split; [exact H4|]. split; [exact H5|congruence]. Qed.
Lemma adj_leaf : forall p q, adj p q -> In q leaves.
Proof. intros p q (H1 & H2 & _). apply (Hnb p q H1 H2). Qed.
Lemma conn_sym : forall p q, conn p q -> conn q p.
Proof.
  intros p q H. induction H as [x y H|x|x y z _ I1 _ I2]; [apply rt_step, adj_sym; assumption|apply rt_refl|eapply rt_trans; eassumption].
Qed.
Lemma conn_leaf : forall p q, In p leaves -> conn p q -> In q leaves.
Proof. intros p q Hp H. induction H as [x y H|x|x y z _ I1 _ I2]; auto. eapply adj_leaf; eassumption. Qed.
Lemma conn_type : forall p q, conn p q -> type p = type q.
Proof. intros p q H. induction H as [x y H|x|x y z _ I1 _ I2]; [apply H|reflexivity|congruence]. Qed.

(** * One region *)

Section Cluster.
Variables (old : list (cell_type * list ptr)) (rid0 : ptr -> Z) (b0 : ptr -> bool) (c0 : ptr).
Let cur := length old.
Let ty := type c0.
Hypothesis Hc0 : In c0 leaves.
Hypothesis Hr0 : rid0 c0 = (-1)%Z.
Hypothesis Hclosed : forall y z, adj y z -> rid0 y = rid0 z.
Hypothesis Hb0 : forall y, In y leaves -> rid0 y = (-1)%Z -> b0 y = false.

Lemma conn_unlabelled : forall y, conn c0 y -> rid0 y = (-1)%Z.
Proof.
  assert (G : forall x y, conn x y -> rid0 x = rid0 y).
  { intros x y H. induction H as [x y H|x|x y z _ I1 _ I2]; [apply Hclosed; assumption|reflexivity|congruence]. }
  intros y H. rewrite <- (G c0 y H). exact Hr0.
Qed.

Record mid (st : labels) (F : list ptr) (x : ptr) (q : list ptr) (flag : bool) : Prop := Mid {
  m_reg : regions st = old ++ [(ty, F ++ x :: q)];
  m_id : forall y, In y (F ++ x :: q) -> region_id st y = Z.of_nat cur;
  m_id' : forall y, ~ In y (F ++ x :: q) -> region_id st y = rid0 y;
  m_bF : forall y, In y F -> boundary_of_region st y = flag_of y;
  m_bx : boundary_of_region st x = flag;
  m_b0 : forall y, ~ In y F -> y <> x -> boundary_of_region st y = b0 y;
  m_nd : NoDup (F ++ x :: q);
  m_conn : forall y, In y (F ++ x :: q) -> conn c0 y }.

Lemma flag_step : forall st F x q flag, mid st F x q flag ->
  mid (Labels (region_id st) (assign (boundary_of_region st) x true) (regions st)) F x q true.
Proof.
  intros st F x q flag M. destruct M. constructor; cbn [regions region_id boundary_of_region]; auto.
  - intros y Hy. rewrite assign_other; [auto|]. intros ->. apply NoDup_remove_2 in m_nd0. apply m_nd0. apply in_or_app. auto.
  - apply assign_same.
  - intros y Hy Hn. rewrite assign_other; auto.
Qed.

Lemma neighbor_step : forall st F x q flag n, mid st F x q flag -> In n (nb x) ->
  exists st' q', visit_neighbor type ty cur x (Ok (st, q)) n = Ok (st', q ++ q') /\
    mid st' F x (q ++ q') (flag || negb (type_eqb (type n) ty)) /\
    (type n = ty -> In n (F ++ x :: q ++ q')).
Proof.
  intros st F x q flag n M Hn. unfold visit_neighbor.
  destruct (type_eqb_spec (type n) ty) as [Et|Nt]; cbn [negb].
  2:{ eexists _, []. rewrite app_nil_r. split; [reflexivity|]. split; [|contradiction].
      rewrite orb_true_r. eapply flag_step; eassumption. }
  rewrite orb_false_r.
  assert (Hx : conn c0 x) by (apply (m_conn _ _ _ _ _ M), in_or_app; right; left; reflexivity).
  assert (Hxl : In x leaves) by (eapply conn_leaf; eassumption).
  assert (Hcn : conn c0 n).
  { eapply rt_trans; [exact Hx|]. apply rt_step. split; [exact Hxl|]. split; [exact Hn|].
    rewrite <- (conn_type _ _ Hx). symmetry. exact Et. }
  destruct (in_dec ptr_dec n (F ++ x :: q)) as [I|I].
  - rewrite (m_id _ _ _ _ _ M n I). rewrite Z.eqb_refl. destruct (Z.eqb_spec (Z.of_nat cur) (-1)); [lia|]. cbn [negb andb].
    exists st, []. rewrite app_nil_r. auto.
  - rewrite (m_id' _ _ _ _ _ M n I), (conn_unlabelled n Hcn). cbn [Z.eqb negb andb Pos.eqb].
    eexists _, [n]. split; [reflexivity|]. split; [|intros _; apply in_or_app; right; right; apply in_or_app; right; left; reflexivity].
    assert (Ev : F ++ x :: q ++ [n] = (F ++ x :: q) ++ [n]) by (rewrite <- app_assoc; reflexivity).
    constructor; cbn [regions region_id boundary_of_region]; try rewrite Ev.
    + rewrite (m_reg _ _ _ _ _ M). unfold cur. rewrite update_nth_last. reflexivity.
    + intros y Hy. destruct (ptr_dec n y) as [->|N]; [apply assign_same|]. rewrite assign_other by exact N.
      apply (m_id _ _ _ _ _ M). apply in_app_or in Hy. destruct Hy as [Hy|[Hy|[]]]; [exact Hy|contradiction].
    + intros y Hy. rewrite assign_other.
      * apply (m_id' _ _ _ _ _ M). intros C. apply Hy. apply in_or_app. left. exact C.
      * intros ->. apply Hy. apply in_or_app. right. left. reflexivity.
    + apply (m_bF _ _ _ _ _ M).
    + apply (m_bx _ _ _ _ _ M).
    + apply (m_b0 _ _ _ _ _ M).
    + apply NoDup_Add with (a := n) (l := F ++ x :: q).
      * rewrite <- (app_nil_r (F ++ x :: q)) at 1. apply Add_app.
      * split; [apply (m_nd _ _ _ _ _ M)|exact I].
    + intros y Hy. apply in_app_or in Hy. destruct Hy as [Hy|[<-|[]]]; [apply (m_conn _ _ _ _ _ M); exact Hy|exact Hcn].
Qed.

Lemma neighbors_step : forall l st F x q flag, mid st F x q flag -> incl l (nb x) ->
  exists st' q', fold_left (visit_neighbor type ty cur x) l (Ok (st, q)) = Ok (st', q ++ q') /\
    mid st' F x (q ++ q') (flag || existsb (fun n => negb (type_eqb (type n) ty)) l) /\
    (forall n, In n l -> type n = ty -> In n (F ++ x :: q ++ q')).
Proof.
  induction l as [|n l IH]; intros st F x q flag M Hl; cbn [fold_left existsb].
  - exists st, []. rewrite app_nil_r, orb_false_r. split; [reflexivity|]. split; [exact M|]. intros n [].
  - destruct (neighbor_step st F x q flag n M) as (st1 & q1 & E1 & M1 & I1); [apply Hl; left; reflexivity|]. rewrite E1.
    destruct (IH st1 F x (q ++ q1) _ M1) as (st2 & q2 & E2 & M2 & I2); [intros y Hy; apply Hl; right; exact Hy|].
    exists st2, (q1 ++ q2). rewrite app_assoc. split; [exact E2|]. split.
    + rewrite orb_assoc. exact M2.
    + intros m [<-|Hm] Ht; [|apply I2; assumption].
      specialize (I1 Ht). apply in_app_or in I1. apply in_or_app. destruct I1 as [I1|I1]; [left; exact I1|right].
      destruct I1 as [I1|I1]; [left; exact I1|right]. apply in_or_app. left. exact I1.
Qed.

Lemma faces_step : forall fs st F x q flag, mid st F x q flag -> incl (concat fs) (nb x) ->
  exists st' q', fold_left (visit_face type ty cur x) fs (Ok (st, q)) = Ok (st', q ++ q') /\
    mid st' F x (q ++ q') (flag || existsb (face_flag ty) fs) /\
    (forall n, In n (concat fs) -> type n = ty -> In n (F ++ x :: q ++ q')).
Proof.
  induction fs as [|f fs IH]; intros st F x q flag M Hl; cbn [fold_left existsb concat].
  - exists st, []. rewrite app_nil_r, orb_false_r. split; [reflexivity|]. split; [exact M|]. intros n [].
  - assert (S : exists st1 q1, visit_face type ty cur x (Ok (st, q)) f = Ok (st1, q ++ q1) /\
              mid st1 F x (q ++ q1) (flag || face_flag ty f) /\
              (forall n, In n f -> type n = ty -> In n (F ++ x :: q ++ q1))).
    { destruct f as [|n f].
      - eexists _, []. rewrite app_nil_r. split; [reflexivity|]. split; [|intros n []].
        cbn [face_flag]. rewrite orb_true_r. eapply flag_step; eassumption.
      - unfold visit_face. destruct (neighbors_step (n :: f) st F x q flag M) as (st1 & q1 & E1 & M1 & I1).
        + intros y Hy. apply Hl. cbn [concat]. apply in_or_app. left. exact Hy.
        + exists st1, q1. split; [exact E1|]. split; [exact M1|exact I1]. }
    destruct S as (st1 & q1 & E1 & M1 & I1). rewrite E1.
    destruct (IH st1 F x (q ++ q1) _ M1) as (st2 & q2 & E2 & M2 & I2).
    { intros y Hy. apply Hl. cbn [concat]. apply in_or_app. right. exact Hy. }
    exists st2, (q1 ++ q2). rewrite app_assoc. split; [exact E2|]. split.
    + rewrite orb_assoc. exact M2.
    + intros n Hn Ht. apply in_app_or in Hn. destruct Hn as [Hn|Hn]; [|apply I2; assumption].
      specialize (I1 n Hn Ht). apply in_app_or in I1. apply in_or_app. destruct I1 as [I1|I1]; [left; exact I1|right].
      destruct I1 as [I1|I1]; [left; exact I1|right]. apply in_or_app. left. exact I1.
Qed.

Record between (st : labels) (F q : list ptr) : Prop := Between {
  n_reg : regions st = old ++ [(ty, F ++ q)];
  n_id : forall y, In y (F ++ q) -> region_id st y = Z.of_nat cur;
  n_id' : forall y, ~ In y (F ++ q) -> region_id st y = rid0 y;
  n_bF : forall y, In y F -> boundary_of_region st y = flag_of y;
  n_b0 : forall y, ~ In y F -> boundary_of_region st y = b0 y;
  n_nd : NoDup (F ++ q);
  n_conn : forall y, In y (F ++ q) -> conn c0 y;
  n_c0 : In c0 (F ++ q);
  n_closed : forall y z, In y F -> adj y z -> In z (F ++ q) }.

Lemma cluster_spec : forall fuel st F q, between st F q -> length leaves <= length F + fuel ->
  exists st' V, cluster faces type ty cur fuel st q = Some (Ok st') /\ between st' V [].
Proof.
  induction fuel as [|fuel IH]; intros st F q B Hfuel; destruct q as [|x q].
  - exists st, F. split; [reflexivity|exact B].
  - exfalso. assert (L : length (F ++ x :: q) <= length leaves).
    { apply NoDup_incl_length; [apply (n_nd _ _ _ B)|]. intros y Hy. eapply conn_leaf; [exact Hc0|]. apply (n_conn _ _ _ B). exact Hy. }
    rewrite app_length in L. simpl in L. lia.
  - exists st, F. split; [reflexivity|exact B].
  - cbn [cluster].
    assert (Ix : In x (F ++ x :: q)) by (apply in_or_app; right; left; reflexivity).
    assert (Cx : conn c0 x) by (apply (n_conn _ _ _ B); exact Ix).
    assert (Lx : In x leaves) by (eapply conn_leaf; eassumption).
    assert (NxF : ~ In x F).
    { pose proof (n_nd _ _ _ B) as N. apply NoDup_remove_2 in N. intros C. apply N. apply in_or_app. left. exact C. }
    assert (M : mid st F x q false).
    { destruct B. constructor; auto. rewrite n_b1 by exact NxF. apply Hb0; [exact Lx|]. apply conn_unlabelled. exact Cx. }
    destruct (Hfaces x Lx) as (fs & Ef). rewrite Ef.
    destruct (faces_step fs st F x q false M) as (st1 & q1 & E1 & M1 & I1).
    { unfold nb. rewrite Ef. apply incl_refl. }
    rewrite E1.
    assert (Ev : F ++ x :: q ++ q1 = (F ++ [x]) ++ q ++ q1) by (rewrite <- app_assoc; reflexivity).
    apply (IH st1 (F ++ [x]) (q ++ q1)).
    + destruct M1. constructor; try (rewrite <- Ev; assumption).
      * intros y Hy. apply in_app_or in Hy. destruct Hy as [Hy|[<-|[]]]; [auto|].
        rewrite m_bx0. unfold flag_of. rewrite Ef, <- (conn_type _ _ Cx). reflexivity.
      * intros y Hy. apply m_b1; intros C; apply Hy; apply in_or_app; [left; exact C|right; left; symmetry; exact C].
      * rewrite <- Ev. pose proof (n_c0 _ _ _ B) as I0. apply in_app_or in I0. apply in_or_app.
        destruct I0 as [I0|I0]; [left; exact I0|right]. destruct I0 as [I0|I0]; [left; exact I0|right]. apply in_or_app. left. exact I0.
      * intros y z Hy Ha. rewrite <- Ev. apply in_app_or in Hy. destruct Hy as [Hy|[<-|[]]].
        -- pose proof (n_closed _ _ _ B y z Hy Ha) as I0. apply in_app_or in I0. apply in_or_app.
           destruct I0 as [I0|I0]; [left; exact I0|right]. destruct I0 as [I0|I0]; [left; exact I0|right]. apply in_or_app. left. exact I0.
        -- apply I1.
           ++ destruct Ha as (_ & Ha & _). unfold nb in Ha. rewrite Ef in Ha. exact Ha.
           ++ destruct Ha as (_ & _ & Ha). rewrite <- Ha. symmetry. exact (conn_type _ _ Cx).
    + rewrite app_length. simpl. lia.
Qed.

Lemma between_class : forall st V, between st V [] -> forall y, In y V <-> conn c0 y.
Proof.
  intros st V B y. pose proof (n_conn _ _ _ B) as C. pose proof (n_c0 _ _ _ B) as C0. pose proof (n_closed _ _ _ B) as Cl.
  rewrite app_nil_r in *. split; [apply C|]. intros H. apply clos_rt_rtn1 in H. induction H as [|y z Hyz _ IH]; [exact C0|].
  eapply Cl; eassumption.
Qed.

End Cluster.

(** * All the regions *)

Record outer (st : labels) : Prop := Outer {
  o_reg : forall i ty l, nth_error (regions st) i = Some (ty, l) ->
    NoDup l /\ exists c, In c l /\ In c leaves /\ type c = ty /\ forall y, In y l <-> conn c y;
  o_id : forall y, In y leaves -> region_id st y = (-1)%Z \/
    exists i r, nth_error (regions st) i = Some r /\ region_id st y = Z.of_nat i /\ In y (snd r);
  o_in : forall i r y, nth_error (regions st) i = Some r -> In y (snd r) -> region_id st y = Z.of_nat i;
  o_b : forall y, In y leaves -> boundary_of_region st y = if (region_id st y =? -1)%Z then false else flag_of y }.

Lemma outer_closed : forall st, outer st -> forall y z, adj y z -> region_id st y = region_id st z.
Proof.
  intros st O.
  assert (W : forall y z, adj y z -> region_id st y <> (-1)%Z -> region_id st y = region_id st z).
  { intros y z Ha Hn. destruct (o_id st O y (proj1 Ha)) as [C|(i & [ty l] & E & Ei & I)]; [contradiction|].
    destruct (o_reg st O i ty l E) as (_ & c & _ & _ & _ & Cl). rewrite Ei. symmetry. apply (o_in st O i (ty, l)); [exact E|].
    apply Cl. eapply rt_trans; [apply Cl; exact I|apply rt_step; exact Ha]. }
  intros y z Ha. destruct (Z.eq_dec (region_id st y) (-1)) as [E|N]; [|apply W; assumption].
  destruct (Z.eq_dec (region_id st z) (-1)) as [E'|N']; [congruence|]. symmetry. apply W; [apply adj_sym; exact Ha|exact N'].
Qed.

Lemma classify_leaf_spec : forall st c, outer st -> In c leaves ->
  exists st', classify_leaf faces type (length leaves) (Some (Ok st)) c = Some (Ok st') /\ outer st' /\
    region_id st' c <> (-1)%Z /\ (forall y, region_id st y <> (-1)%Z -> region_id st' y <> (-1)%Z).
Proof.
  intros st c O Hc. unfold classify_leaf. destruct (Z.ltb_spec (-1) (region_id st c)) as [L|L].
  - exists st. split; [reflexivity|]. split; [exact O|]. split; [lia|auto].
  - assert (Hr : region_id st c = (-1)%Z).
    { destruct (o_id st O c Hc) as [E|(i & r & _ & E & _)]; [exact E|]. exfalso. lia. }
    pose proof (outer_closed st O) as Hcl.
    assert (Hb : forall y, In y leaves -> region_id st y = (-1)%Z -> boundary_of_region st y = false).
    { intros y Hy E. rewrite (o_b st O y Hy), E. reflexivity. }
    set (st1 := Labels (assign (region_id st) c (Z.of_nat (length (regions st)))) (boundary_of_region st) (regions st ++ [(type c, [c])])).
    assert (B : between (regions st) (region_id st) (boundary_of_region st) c st1 [] [c]).
    { constructor; unfold st1; cbn [regions region_id boundary_of_region app].
      - reflexivity.
      - intros y [<-|[]]. apply assign_same.
      - intros y Hy. apply assign_other. intros E. apply Hy. left. exact E.
      - intros y [].
      - reflexivity.
      - repeat constructor. simpl. tauto.
      - intros y [<-|[]]. apply rt_refl.
      - left. reflexivity.
      - intros y z []. }
    destruct (cluster_spec (regions st) (region_id st) (boundary_of_region st) c Hc Hr Hcl Hb (length leaves) st1 [] [c] B) as (st' & V & E & B').
    { simpl. lia. }
    exists st'. split; [exact E|].
    pose proof (between_class _ _ _ _ _ _ B') as Cl. destruct B'. rewrite app_nil_r in *.
    assert (Hcur : forall y, In y V -> region_id st' y = Z.of_nat (length (regions st))) by assumption.
    split; [|split].
    + constructor.
      * intros i ty l Ei. rewrite n_reg0 in Ei. destruct (Nat.lt_ge_cases i (length (regions st))) as [Li|Li].
        -- rewrite nth_error_app1 in Ei by exact Li. apply (o_reg st O i ty l Ei).
        -- rewrite nth_error_app2 in Ei by exact Li. destruct (i - length (regions st)) as [|k]; [|destruct k; discriminate].
           inversion Ei; subst ty l. split; [exact n_nd0|]. exists c. split; [exact n_c1|]. split; [exact Hc|]. split; [reflexivity|exact Cl].
      * intros y Hy. destruct (in_dec ptr_dec y V) as [I|I].
        -- right. exists (length (regions st)), (type c, V). split; [|split; [apply Hcur; exact I|exact I]].
           rewrite n_reg0, nth_error_app2, Nat.sub_diag by lia. reflexivity.
        -- rewrite (n_id'0 y I). destruct (o_id st O y Hy) as [E0|(i & r & E0 & E1 & I0)]; [left; exact E0|right].
           exists i, r. split; [|split; assumption]. rewrite n_reg0. rewrite nth_error_app1; [exact E0|]. apply nth_error_Some. congruence.
      * intros i r y Ei Hy. rewrite n_reg0 in Ei. destruct (Nat.lt_ge_cases i (length (regions st))) as [Li|Li].
        -- rewrite nth_error_app1 in Ei by exact Li. rewrite n_id'0; [apply (o_in st O i r y Ei Hy)|].
           intros I. apply Cl in I. pose proof (conn_unlabelled _ _ Hr Hcl y I) as U.
           rewrite (o_in st O i r y Ei Hy) in U. lia.
        -- rewrite nth_error_app2 in Ei by exact Li. destruct (i - length (regions st)) as [|k] eqn:Ek; [|destruct k; discriminate].
           inversion Ei; subst r. cbn [snd] in Hy. rewrite Hcur by exact Hy. f_equal. lia.
      * intros y Hy. destruct (in_dec ptr_dec y V) as [I|I].
        -- rewrite (n_bF0 y I), (Hcur y I). destruct (Z.eqb_spec (Z.of_nat (length (regions st))) (-1)); [lia|reflexivity].
        -- rewrite (n_b1 y I), (n_id'0 y I). apply (o_b st O y Hy).
    + rewrite Hcur by exact n_c1. lia.
    + intros y Hy. destruct (in_dec ptr_dec y V) as [I|I]; [rewrite Hcur by exact I; lia|]. rewrite (n_id'0 y I). exact Hy.
Qed.

Theorem regions_spec : exists st,
  fold_left (classify_leaf faces type (length leaves)) leaves (Some (Ok no_labels)) = Some (Ok st) /\ outer st /\
  forall y, In y leaves -> region_id st y <> (-1)%Z.
Proof.
  assert (G : forall l st, incl l leaves -> outer st -> exists st',
     fold_left (classify_leaf faces type (length leaves)) l (Some (Ok st)) = Some (Ok st') /\ outer st' /\
     (forall y, In y l -> region_id st' y <> (-1)%Z) /\ (forall y, region_id st y <> (-1)%Z -> region_id st' y <> (-1)%Z)).
  { induction l as [|c l IH]; intros st Hl O; cbn [fold_left].
    - exists st. split; [reflexivity|]. split; [exact O|]. split; [intros y []|auto].
    - destruct (classify_leaf_spec st c O) as (st1 & E1 & O1 & N1 & K1); [apply Hl; left; reflexivity|]. rewrite E1.
      destruct (IH st1) as (st2 & E2 & O2 & N2 & K2); [intros y Hy; apply Hl; right; exact Hy|exact O1|].
      exists st2. split; [exact E2|]. split; [exact O2|]. split; [|auto]. intros y [<-|Hy]; auto. }
  destruct (G leaves no_labels (incl_refl _)) as (st & E & O & N & _).
  - constructor; cbn.
    + intros i ty l H. destruct i; discriminate.
    + auto.
    + intros i r y H. destruct i; discriminate.
    + reflexivity.
  - exists st. auto.
Qed.

(** Consequence: two leaves have the same number when they are connected. *)
Lemma outer_conn : forall st, outer st -> (forall y, In y leaves -> region_id st y <> (-1)%Z) ->
  forall y z, In y leaves -> In z leaves -> (region_id st y = region_id st z <-> conn y z).
Proof.
  intros st O N y z Hy Hz. split.
  - intros E. destruct (o_id st O y Hy) as [C|(i & [ty l] & E1 & E2 & I1)]; [exfalso; exact (N y Hy C)|].
    destruct (o_id st O z Hz) as [C|(j & [ty' l'] & E3 & E4 & I2)]; [exfalso; exact (N z Hz C)|].
    assert (i = j) by lia. subst j. rewrite E1 in E3. inversion E3; subst ty' l'.
    destruct (o_reg st O i ty l E1) as (_ & c & _ & _ & _ & Cl). cbn [snd] in *.
    eapply rt_trans; [apply conn_sym; apply Cl; exact I1|apply Cl; exact I2].
  - intros H. induction H as [x y H|x|x y z' H1 I1 H2 I2].
    + apply outer_closed; assumption.
    + reflexivity.
    + assert (Hm : In y leaves) by exact (conn_leaf x y Hy H1). rewrite (I1 Hy Hm). exact (I2 Hm Hz).
Qed.

End Regions.
