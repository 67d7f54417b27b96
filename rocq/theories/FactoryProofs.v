(** Proofs about the functions that make elements in Python. *)

From Coq Require Import ZArith Reals Lra Lia List Arith Bool.
From Verif Require Import GridGeoModel ShapeModel ShapeSpec ShapeProofs LinAlg RectModel FactoryModel FactorySpec ShapeFieldProofs.
Import ListNotations.
Open Scope nat_scope.

(** What is loaded. *)
Definition numbers_in (x : loaded) : list R :=
  match x with LFloat x => [x] | LVector l => l | LMatrix rows => concat rows | _ => [] end.
Definition fits (p : param) (x : loaded) : Prop :=
  match p, x with
  | PFloat, LFloat _ => True
  | PVector n, LVector l => length l = n
  | PMatrix r c, LMatrix rows => table r c rows
  | PDimension, LDimension _ => True
  | POrder, LOrder _ => True
  | _, _ => False
  end.
Lemma rows_table : forall r c f, table r c (rows_of r c f).
Proof.
  intros r c f. unfold rows_of. split; [rewrite map_length, seq_length; reflexivity|]. apply Forall_forall. intros p Hp.
  apply in_map_iff in Hp as (i & <- & _). rewrite map_length, seq_length. reflexivity.
Qed.
Lemma concat_single : forall A B (f : A -> B) l, concat (map (fun i => [f i]) l) = map f l.
Proof. intros A B f l. induction l; cbn; [reflexivity|]. rewrite IHl. reflexivity. Qed.
Lemma load_correct : forall c p v x, load c p v = Some x -> fits p x /\ numbers_in x = numbers v.
Proof.
  intros c p v x E. destruct p as [|n|r q| |], v as [y|z|k a|d|o|]; try discriminate E.
  - injection E as <-. split; [exact I|reflexivity].
  - cbn in E. destruct c; [|discriminate]. injection E as <-. split; [exact I|reflexivity].
  - cbn in E. destruct a as [[|y [|]]|[|[|]] [|[|]] f]; try discriminate; destruct k; try discriminate; destruct c; try discriminate; injection E as <-;
      (split; [exact I|reflexivity]).
  - cbn [load] in E. destruct a as [l|r q f].
    + destruct (Nat.eqb_spec (length l) n) as [H|]; [|discriminate]. destruct (accepted c k); [|discriminate]. injection E as <-. split; [exact H|reflexivity].
    + destruct (Nat.eqb_spec r n) as [->|]; [|discriminate]. destruct (Nat.eqb_spec q 1) as [->|]; [|discriminate]. cbn [andb] in E.
      destruct (accepted c k); [|discriminate]. injection E as <-. cbn [fits numbers_in numbers].
      split; [rewrite map_length, seq_length; reflexivity|]. cbn [seq map]. rewrite concat_single. reflexivity.
  - cbn [load] in E. destruct a as [l|r' q' f]; [discriminate|].
    destruct (Nat.eqb_spec r' r) as [->|]; [|discriminate]. destruct (Nat.eqb_spec q' q) as [->|]; [|discriminate]. cbn [andb] in E.
    destruct (accepted c k); [|discriminate]. injection E as <-. split; [apply rows_table|reflexivity].
  - injection E as <-. split; [exact I|reflexivity].
  - injection E as <-. split; [exact I|reflexivity].
Qed.
Lemma load_enum : forall c p v x, load c p v = Some x -> (p = PDimension \/ p = POrder) -> without_numbers v.
Proof. intros c p v x E [-> | ->]; destruct v; try discriminate; exact I. Qed.
Lemma load_mono : forall p v x, load false p v = Some x -> load true p v = Some x.
Proof.
  intros p v x E. destruct p as [|n|r q| |], v as [y|z|k a|d|o|]; try discriminate E; try exact E.
  - cbn in *. destruct a as [[|y [|]]|[|[|]] [|[|]] f]; try discriminate; destruct k; discriminate.
  - cbn [load] in *. destruct a as [l|r q f].
    + destruct (Nat.eqb (length l) n); [|discriminate]. destruct k; try discriminate. exact E.
    + destruct (Nat.eqb r n && Nat.eqb q 1)%bool; [|discriminate]. destruct k; try discriminate. exact E.
  - cbn [load] in *. destruct a as [l|r' q' f]; [discriminate|].
    destruct (Nat.eqb r' r && Nat.eqb q' q)%bool; [|discriminate]. destruct k; try discriminate. exact E.
Qed.
(** The parameters that got an argument, and the defaults of the others. *)
Lemma load_all_correct : forall c ps ds vs l, load_all c ps ds vs = Some l ->
  exists ps1 ps2 l1 ds', ps = ps1 ++ ps2 /\ length vs = length ps1 /\ l = l1 ++ ds' /\ Forall2 fits ps1 l1 /\
    concat (map numbers vs) = concat (map numbers_in l1) /\ (ps2 = [] /\ ds' = [] \/ ps2 <> [] /\ length ps2 = length ds /\ ds' = ds) /\
    (Forall (fun p => p = PDimension \/ p = POrder) ps1 -> Forall without_numbers vs).
Proof.
  intros c ps ds. induction ps as [|p ps IH]; intros vs l E; destruct vs as [|v vs]; cbn [load_all] in E; try discriminate.
  - injection E as <-. exists [], [], [], []. repeat split; auto.
  - destruct (Nat.eqb_spec (length (p :: ps)) (length ds)) as [H|]; [|discriminate]. injection E as <-.
    exists [], (p :: ps), [], ds. repeat split; auto. right. split; [discriminate|]. auto.
  - destruct (load c p v) as [x|] eqn:Ex; [|discriminate]. destruct (load_all c ps ds vs) as [l'|] eqn:El; [|discriminate]. injection E as <-.
    destruct (IH vs l' El) as (ps1 & ps2 & l1 & ds' & A & B & C & D & F & G & K). subst ps l'.
    destruct (load_correct _ _ _ _ Ex) as [X Y]. exists (p :: ps1), ps2, (x :: l1), ds'.
    split; [reflexivity|]. split; [cbn; congruence|]. split; [reflexivity|]. split; [constructor; assumption|].
    split; [cbn; rewrite F, Y; reflexivity|]. split; [exact G|]. intros Q. apply Forall_cons_iff in Q as [Q1 Q2].
    constructor; [exact (load_enum _ _ _ _ Ex Q1)|exact (K Q2)].
Qed.
Lemma load_all_mono : forall ps ds vs l, load_all false ps ds vs = Some l -> load_all true ps ds vs = Some l.
Proof.
  induction ps as [|p ps IH]; intros ds vs l E; destruct vs as [|v vs]; cbn [load_all] in *; try discriminate; try exact E.
  destruct (load false p v) as [x|] eqn:Ex; [|discriminate]. rewrite (load_mono _ _ _ Ex).
  destruct (load_all false ps ds vs) as [l'|] eqn:El; [|discriminate]. rewrite (IH ds vs l' El). exact E.
Qed.

(** Overload resolution. *)
Lemma first_of_in : forall A B (f : A -> option B) l b, first_of f l = Some b -> exists a, In a l /\ f a = Some b.
Proof.
  intros A B f l b. induction l as [|a l IH]; cbn; intros E; [discriminate|]. destruct (f a) as [b'|] eqn:Ea.
  - injection E as <-. exists a. auto.
  - destruct (IH E) as (a' & H & E'). exists a'. auto.
Qed.
Lemma dispatch_in : forall t vs m, dispatch t vs = Some m -> exists c o, In o t /\ try_overload c vs o = Some m.
Proof.
  intros t vs m E. unfold dispatch in E. destruct (first_of (try_overload false vs) t) as [m'|] eqn:E1.
  - injection E as <-. destruct (first_of_in _ _ _ _ _ E1) as (o & H & E'). exists false, o. auto.
  - destruct (first_of_in _ _ _ _ _ E) as (o & H & E'). exists true, o. auto.
Qed.
Lemma first_of_none : forall A B (f : A -> option B) l r, Forall (fun a => f a = None) l -> first_of f (l ++ r) = first_of f r.
Proof. intros A B f l r H. induction H as [|a l E H IH]; cbn; [reflexivity|]. rewrite E. exact IH. Qed.
Lemma dispatch_only : forall t1 o t2 vs m, (forall c, Forall (fun o => try_overload c vs o = None) t1) ->
  (forall c, Forall (fun o => try_overload c vs o = None) t2) -> try_overload true vs o = Some m ->
  dispatch (t1 ++ o :: t2) vs = Some m.
Proof.
  intros t1 o t2 vs m H1 H2 E. unfold dispatch. rewrite !first_of_none by apply H1. cbn [first_of]. rewrite E.
  destruct (try_overload false vs o) as [m'|] eqn:F.
  - unfold try_overload in *. destruct (load_all false (params o) (defaults o) vs) as [l|] eqn:G; [|discriminate].
    rewrite (load_all_mono _ _ _ _ G) in E. congruence.
  - rewrite <- (app_nil_r t2), first_of_none by apply H2. reflexivity.
Qed.
Lemma reject_arity : forall c vs o, length vs <> length (params o) -> length vs + length (defaults o) <> length (params o) ->
  try_overload c vs o = None.
Proof.
  intros c vs o H1 H2. unfold try_overload. destruct (load_all c (params o) (defaults o) vs) as [l|] eqn:E; [|reflexivity]. exfalso.
  destruct (load_all_correct _ _ _ _ _ E) as (ps1 & ps2 & l1 & ds' & A & B & _ & _ & _ & G & _).
  apply (f_equal (@length _)) in A. rewrite app_length in A. destruct G as [[-> _]|(_ & G & _)]; cbn in *; lia.
Qed.
Lemma reject_first : forall c v vs p o, hd_error (params o) = Some p -> load c p v = None -> try_overload c (v :: vs) o = None.
Proof.
  intros c v vs p o H E. unfold try_overload. destruct (params o) as [|p' ps]; [discriminate|]. injection H as ->. cbn [load_all]. rewrite E. reflexivity.
Qed.

(** Points. *)
Lemma load_vectors : forall ks points D, length ks = length points -> Forall (fun p => length p = D) points -> forall ps ds vs,
  load_all true (repeat (PVector D) (length points) ++ ps) ds (separately ks points ++ vs) =
  option_map (fun l => map LVector points ++ l) (load_all true ps ds vs).
Proof.
  intros ks points D. revert ks. induction points as [|p points IH]; intros [|k ks] L H ps ds vs; try discriminate.
  - cbn. destruct (load_all true ps ds vs); reflexivity.
  - apply Forall_cons_iff in H as [Hp H]. cbn in L. change (separately (k :: ks) (p :: points) ++ vs) with (Arr k (Vec p) :: (separately ks points ++ vs)).
    cbn [length repeat app load_all load]. rewrite Hp, Nat.eqb_refl. cbn [accepted orb].
    rewrite (IH ks ltac:(lia) H ps ds vs). destruct (load_all true ps ds vs); reflexivity.
Qed.
Lemma separately_length : forall ks points, length ks = length points -> length (separately ks points) = length points.
Proof. intros ks points L. unfold separately. rewrite map_length, combine_length. lia. Qed.
Lemma points_vectors : forall points l, points_of (map LVector points ++ l) = points ++ points_of l.
Proof. induction points as [|p points IH]; intros l; cbn; [reflexivity|]. rewrite IH. reflexivity. Qed.
Lemma take_points : forall n D f ks points, length ks = n -> table n D points ->
  try_overload true (separately ks points) (f_points n D f) = Some (f points).
Proof.
  intros n D f ks points L [Ln H]. unfold try_overload, f_points; cbn [params defaults body].
  pose proof (load_vectors ks points D ltac:(lia) H [] [] []) as E. rewrite !app_nil_r, Ln in E. rewrite E. cbn.
  rewrite points_vectors. cbn. rewrite app_nil_r. reflexivity.
Qed.
Lemma nth_vectors : forall n points l d, length points = n -> nth n (map LVector points ++ l) d = nth 0 l d.
Proof. intros n points l d H. rewrite app_nth2; rewrite map_length; [|lia]. rewrite H, Nat.sub_diag. reflexivity. Qed.
Lemma take_points_default : forall n D f ks points, length ks = n -> table n D points ->
  try_overload true (separately ks points) (f_points_order n D f) = f points Linear.
Proof.
  intros n D f ks points L [Ln H]. unfold try_overload, f_points_order; cbn [params defaults body].
  pose proof (load_vectors ks points D ltac:(lia) H [POrder] [LOrder Linear] []) as E. rewrite app_nil_r, Ln in E. rewrite E. cbn [load_all length Nat.eqb option_map].
  rewrite nth_vectors by exact Ln. cbn [nth]. rewrite points_vectors. cbn. rewrite app_nil_r. reflexivity.
Qed.
Lemma take_points_order : forall n D f ks points o, length ks = n -> table n D points ->
  try_overload true (separately ks points ++ [OrderV o]) (f_points_order n D f) = f points o.
Proof.
  intros n D f ks points o L [Ln H]. unfold try_overload, f_points_order; cbn [params defaults body].
  pose proof (load_vectors ks points D ltac:(lia) H [POrder] [LOrder Linear] [OrderV o]) as E. rewrite Ln in E. rewrite E. cbn [load_all load option_map].
  rewrite nth_vectors by exact Ln. cbn [nth]. rewrite points_vectors. cbn. rewrite app_nil_r. reflexivity.
Qed.
(** One array. *)
Lemma map_nth_seq : forall A (d : A) l, map (fun i => nth i l d) (seq 0 (length l)) = l.
Proof.
  intros A d l. apply (nth_ext _ _ d d); [rewrite map_length, seq_length; reflexivity|]. intros i Hi. rewrite map_length, seq_length in Hi.
  rewrite nth_indep with (d' := (fun i => nth i l d) 0) by (rewrite map_length, seq_length; exact Hi).
  rewrite (map_nth (fun i => nth i l d)), seq_nth by exact Hi. reflexivity.
Qed.
Lemma rows_of_table : forall n D points, table n D points -> rows_of n D (fun i j => nth j (nth i points []) 0%R) = points.
Proof.
  intros n D points [Ln H]. subst n. unfold rows_of. etransitivity; [|apply (map_nth_seq _ [] points)]. apply map_ext_in. intros i Hi.
  apply in_seq in Hi. rewrite Forall_forall in H. rewrite <- (H (nth i points [])) by (apply nth_In; lia). apply map_nth_seq.
Qed.
Lemma load_together : forall n D k points, table n D points -> load true (PMatrix n D) (together k n D points) = Some (LMatrix points).
Proof.
  intros n D k points H. unfold together. cbn [load]. rewrite !Nat.eqb_refl. cbn [andb accepted orb]. rewrite (rows_of_table n D points H). reflexivity.
Qed.
Lemma take_nodes : forall n D f k points, table n D points -> try_overload true [together k n D points] (f_nodes n D f) = Some (f points).
Proof. intros. unfold try_overload, f_nodes; cbn [params defaults body load_all]. rewrite load_together by assumption. reflexivity. Qed.
Lemma take_nodes_default : forall n D f k points, table n D points -> try_overload true [together k n D points] (f_nodes_order n D f) = f points Linear.
Proof. intros. unfold try_overload, f_nodes_order; cbn [params defaults body load_all]. rewrite load_together by assumption. reflexivity. Qed.
Lemma take_nodes_order : forall n D f k points o, table n D points ->
  try_overload true [together k n D points; OrderV o] (f_nodes_order n D f) = f points o.
Proof. intros. unfold try_overload, f_nodes_order; cbn [params defaults body load_all]. rewrite load_together by assumption. reflexivity. Qed.

(** Rejections: by the number of arguments, or by the first of them. *)
Lemma float_not_points : forall c k p, length p <> 1 -> load c PFloat (Arr k (Vec p)) = None.
Proof. intros c k [|x [|y p]] H; try reflexivity. cbn in H. lia. Qed.
Lemma vector_not_points : forall c k p n, length p <> n -> load c (PVector n) (Arr k (Vec p)) = None.
Proof. intros c k p n H. cbn [load]. destruct (Nat.eqb_spec (length p) n); [contradiction|reflexivity]. Qed.
Definition reference_nodes (D : nat) (e : element) := map (pad D) (canonical_nodes e).
Lemma pad_length : forall D p, length p <= D -> length (pad D p) = D.
Proof. intros D p H. unfold pad. rewrite app_length, repeat_length. lia. Qed.
Lemma nth_pad : forall D p j, nth j (pad D p) 0%R = nth j p 0%R.
Proof.
  intros D p j. unfold pad. destruct (Nat.lt_ge_cases j (length p)) as [H|H].
  - rewrite app_nth1 by exact H. reflexivity.
  - rewrite app_nth2 by exact H. rewrite (nth_overflow p) by exact H. destruct (Nat.lt_ge_cases (j - length p) (D - length p)).
    + rewrite nth_repeat. reflexivity.
    + apply nth_overflow. rewrite repeat_length. assumption.
Qed.
Lemma reference_is : forall f D o, exists_in f D -> reference_in D (element_of f o) (reference_nodes D (element_of f o)).
Proof.
  intros f D o H. assert (A : length (canonical_nodes (element_of f o)) = NumberOfNodes (element_of f o)) by (destruct f, o; reflexivity).
  assert (B : Forall (fun p => length p <= D) (canonical_nodes (element_of f o))).
  { destruct f, o; cbn in H; repeat constructor; cbn; lia. }
  unfold reference_nodes. split.
  - split; [rewrite map_length; exact A|]. apply Forall_map. eapply Forall_impl; [|exact B]. intros p Hp. apply pad_length. exact Hp.
  - intros i j Hi Hj. rewrite nth_indep with (d' := pad D []) by (rewrite map_length, A; exact Hi). rewrite map_nth. apply nth_pad.
Qed.

(** ** What is made from points *)
Lemma promoted : forall f D o nodes, exists_in f D -> f <> OfSegments -> table (NumberOfNodes (element_of f Linear)) D nodes ->
  exists nodes', by_order D (element_of f Linear) nodes o = Some (Element D (element_of f o) nodes') /\
    match o with Linear => nodes' = nodes | Quadratic => same_geometry D (element_of f Linear) nodes (element_of f Quadratic) nodes' end.
Proof.
  intros f D [|] nodes H N T.
  - exists nodes. split; reflexivity.
  - destruct (quadratic_of_linear D (element_of f Linear) nodes) as [[e' nodes']|] eqn:E; [|destruct f; try discriminate E; contradiction].
    assert (e' = element_of f Quadratic) by (destruct f; try contradiction; injection E; intros; subst; reflexivity). subst e'.
    exists nodes'. split; [cbn [by_order]; rewrite E; reflexivity|].
    split; [exact (proj1 (ShapeFieldProofs.quadratic_of_linear_same_geometry D _ nodes _ nodes' (repeat 0%R (CanonicalDimension (element_of f Linear))) T (repeat_length _ _) E))|].
    intros xi Hxi. exact (proj2 (proj2 (ShapeFieldProofs.quadratic_of_linear_same_geometry D _ nodes _ nodes' xi T Hxi E))).
Qed.
Lemma dispatch_at : forall n t o vs m, nth_error t n = Some o -> (forall c, Forall (fun o => try_overload c vs o = None) (firstn n t)) ->
  (forall c, Forall (fun o => try_overload c vs o = None) (skipn (S n) t)) -> try_overload true vs o = Some m -> dispatch t vs = Some m.
Proof.
  intros n t o vs m E H1 H2 F. replace t with (firstn n t ++ o :: skipn (S n) t); [apply dispatch_only; assumption|].
  clear -E. revert n E. induction t as [|a t IH]; intros [|n] E; try discriminate.
  - injection E as ->. reflexivity.
  - cbn [firstn skipn app]. f_equal. exact (IH n E).
Qed.
(** Rejections: by the number of arguments, known as [L], or by the first of them, known by [V]. *)
Ltac rejected L V := intros; repeat (apply Forall_cons; [first
  [ solve [apply reject_arity; rewrite L; cbn; lia]
  | solve [rewrite V; eapply reject_first; [reflexivity|first [reflexivity | apply float_not_points; lia | apply vector_not_points; lia]]] ]|]); apply Forall_nil.
Ltac taken n L V := eapply (dispatch_at n); [reflexivity|cbn [firstn]; rejected L V|cbn [skipn]; rejected L V|].
Lemma first_point : forall n D ks points, 0 < n -> length ks = n -> table n D points ->
  exists k p vs, separately ks points = Arr k (Vec p) :: vs /\ length p = D.
Proof.
  intros n D ks points Hn Hk [Hp H]. destruct ks as [|k ks], points as [|p points]; cbn in *; try lia.
  apply Forall_cons_iff in H as [H _]. exists k, p, (separately ks points). split; [reflexivity|exact H].
Qed.
Lemma separate : forall f D o ks points, exists_in f D -> D <> 1 -> length ks = NumberOfNodes (element_of f o) ->
  table (NumberOfNodes (element_of f o)) D points ->
  function_of f (separately ks points) = Some (Element D (element_of f o) points).
Proof.
  intros f D o ks points HD H1 Hk T. assert (N : 0 < NumberOfNodes (element_of f o)) by (destruct f, o; cbn; lia).
  destruct (first_point _ D ks points N Hk T) as (k & p & vs & V & Lp).
  assert (L : length (separately ks points) = NumberOfNodes (element_of f o)) by (rewrite separately_length; [apply T|rewrite Hk; symmetry; apply T]).
  destruct f, o; cbn [exists_in function_of element_of] in *;
    (destruct HD as [HD|[HD|HD]] || destruct HD as [HD|HD] || idtac); subst D; try (exfalso; apply H1; reflexivity); cbn [NumberOfNodes] in *.
  all: unfold Segment, Segment_overloads, Triangle, Triangle_overloads, Quad, Quad_overloads, Tetrahedron, Tetrahedron_overloads, Hexahedron, Hexahedron_overloads; cbv zeta.
  - taken 7 L V. exact (take_points 2 2 (Element 2 Segment_Linear) ks points Hk T).
  - taken 9 L V. exact (take_points 2 3 (Element 3 Segment_Linear) ks points Hk T).
  - taken 13 L V. exact (take_points 3 2 (Element 2 Segment_Quadratic) ks points Hk T).
  - taken 15 L V. exact (take_points 3 3 (Element 3 Segment_Quadratic) ks points Hk T).
  - taken 5 L V. exact (take_points_default 3 2 (by_order 2 Triangle_Linear) ks points Hk T).
  - taken 7 L V. exact (take_points_default 3 3 (by_order 3 Triangle_Linear) ks points Hk T).
  - taken 9 L V. exact (take_points 6 2 (Element 2 Triangle_Quadratic) ks points Hk T).
  - taken 11 L V. exact (take_points 6 3 (Element 3 Triangle_Quadratic) ks points Hk T).
  - taken 5 L V. exact (take_points_default 4 2 (by_order 2 Quad_Linear) ks points Hk T).
  - taken 7 L V. exact (take_points_default 4 3 (by_order 3 Quad_Linear) ks points Hk T).
  - taken 9 L V. exact (take_points 8 2 (Element 2 Quad_Quadratic) ks points Hk T).
  - taken 11 L V. exact (take_points 8 3 (Element 3 Quad_Quadratic) ks points Hk T).
  - taken 3 L V. exact (take_points_default 4 3 (by_order 3 Tetrahedron_Linear) ks points Hk T).
  - taken 5 L V. exact (take_points 10 3 (Element 3 Tetrahedron_Quadratic) ks points Hk T).
  - taken 3 L V. exact (take_points_default 8 3 (by_order 3 Hexahedron_Linear) ks points Hk T).
  - taken 5 L V. exact (take_points 20 3 (Element 3 Hexahedron_Quadratic) ks points Hk T).
Qed.
Lemma separate_order : forall f D o ks points, exists_in f D -> f <> OfSegments -> length ks = NumberOfNodes (element_of f Linear) ->
  table (NumberOfNodes (element_of f Linear)) D points ->
  function_of f (separately ks points ++ [OrderV o]) = by_order D (element_of f Linear) points o.
Proof.
  intros f D o ks points HD Hf Hk T. destruct (promoted f D o points HD Hf T) as (nodes & E & _).
  assert (N : 0 < NumberOfNodes (element_of f Linear)) by (destruct f; cbn; lia).
  destruct (first_point _ D ks points N Hk T) as (k & p & vs & V' & Lp).
  assert (V : separately ks points ++ [OrderV o] = Arr k (Vec p) :: (vs ++ [OrderV o])) by (rewrite V'; reflexivity).
  assert (L : length (separately ks points ++ [OrderV o]) = S (NumberOfNodes (element_of f Linear))).
  { rewrite app_length, separately_length; [destruct T as [-> _]; cbn; lia|rewrite Hk; symmetry; apply T]. }
  destruct f; try contradiction; cbn [exists_in function_of element_of] in *;
    (destruct HD as [HD|HD] || idtac); subst D; cbn [NumberOfNodes] in *.
  all: unfold Triangle, Triangle_overloads, Quad, Quad_overloads, Tetrahedron, Tetrahedron_overloads, Hexahedron, Hexahedron_overloads; cbv zeta; rewrite E.
  - taken 5 L V. rewrite <- E. exact (take_points_order 3 2 (by_order 2 Triangle_Linear) ks points o Hk T).
  - taken 7 L V. rewrite <- E. exact (take_points_order 3 3 (by_order 3 Triangle_Linear) ks points o Hk T).
  - taken 5 L V. rewrite <- E. exact (take_points_order 4 2 (by_order 2 Quad_Linear) ks points o Hk T).
  - taken 7 L V. rewrite <- E. exact (take_points_order 4 3 (by_order 3 Quad_Linear) ks points o Hk T).
  - taken 3 L V. rewrite <- E. exact (take_points_order 4 3 (by_order 3 Tetrahedron_Linear) ks points o Hk T).
  - taken 3 L V. rewrite <- E. exact (take_points_order 8 3 (by_order 3 Hexahedron_Linear) ks points o Hk T).
Qed.
(** One array. *)
Lemma matrix_other : forall c r q k n D points, (r <> n \/ q <> D) -> load c (PMatrix r q) (together k n D points) = None.
Proof.
  intros c r q k n D points H. unfold together. cbn [load]. destruct (Nat.eqb_spec n r), (Nat.eqb_spec D q); cbn [andb]; try reflexivity. lia.
Qed.
Lemma vector_other : forall c m k n D points, (m <> n \/ D <> 1) -> load c (PVector m) (together k n D points) = None.
Proof.
  intros c m k n D points H. unfold together. cbn [load]. destruct (Nat.eqb_spec n m), (Nat.eqb_spec D 1); cbn [andb]; try reflexivity. lia.
Qed.
Ltac rejected1 := intros; repeat (apply Forall_cons; [first
  [ solve [apply reject_arity; cbn; lia]
  | solve [eapply reject_first; [reflexivity|first [reflexivity | apply matrix_other; lia | apply vector_other; lia | apply vector_not_points; lia]]] ]|]); apply Forall_nil.
Ltac taken1 n := eapply (dispatch_at n); [reflexivity|cbn [firstn]; rejected1|cbn [skipn]; rejected1|].
Lemma column_points : forall n points, table n 1 points -> map (fun x => [x]) (map (fun i => nth 0 (nth i points []) 0%R) (seq 0 n)) = points.
Proof.
  intros n points [L H]. subst n. rewrite map_map. etransitivity; [|apply (map_nth_seq _ [] points)]. apply map_ext_in. intros i Hi. apply in_seq in Hi.
  rewrite Forall_forall in H. specialize (H (nth i points []) (nth_In _ _ (proj2 Hi))). destruct (nth i points []) as [|x [|]]; try discriminate. reflexivity.
Qed.
Lemma take_column : forall n f k points, table n 1 points -> try_overload true [together k n 1 points] (f_column n f) = Some (f points).
Proof.
  intros n f k points T. unfold try_overload, f_column, together; cbn [params defaults body load_all load]. rewrite !Nat.eqb_refl. cbn [andb accepted orb].
  rewrite (column_points n points T). reflexivity.
Qed.
Ltac overloads := unfold Segment, Segment_overloads, Triangle, Triangle_overloads, Quad, Quad_overloads, Tetrahedron, Tetrahedron_overloads, Hexahedron, Hexahedron_overloads; cbv zeta.
Lemma in_one : forall f D o k points, exists_in f D -> table (NumberOfNodes (element_of f o)) D points ->
  function_of f [together k (NumberOfNodes (element_of f o)) D points] = Some (Element D (element_of f o) points).
Proof.
  intros f D o k points HD T. 
  destruct f, o; cbn [exists_in function_of element_of] in *;
    (destruct HD as [HD|[HD|HD]] || destruct HD as [HD|HD] || idtac); subst D; cbn [NumberOfNodes] in *.
  all: overloads.
  - taken1 4. exact (take_column 2 (Element 1 Segment_Linear) k points T).
  - taken1 6. exact (take_nodes 2 2 (Element 2 Segment_Linear) k points T).
  - taken1 8. exact (take_nodes 2 3 (Element 3 Segment_Linear) k points T).
  - taken1 10. exact (take_column 3 (Element 1 Segment_Quadratic) k points T).
  - taken1 12. exact (take_nodes 3 2 (Element 2 Segment_Quadratic) k points T).
  - taken1 14. exact (take_nodes 3 3 (Element 3 Segment_Quadratic) k points T).
  - taken1 4. exact (take_nodes_default 3 2 (by_order 2 Triangle_Linear) k points T).
  - taken1 6. exact (take_nodes_default 3 3 (by_order 3 Triangle_Linear) k points T).
  - taken1 8. exact (take_nodes 6 2 (Element 2 Triangle_Quadratic) k points T).
  - taken1 10. exact (take_nodes 6 3 (Element 3 Triangle_Quadratic) k points T).
  - taken1 4. exact (take_nodes_default 4 2 (by_order 2 Quad_Linear) k points T).
  - taken1 6. exact (take_nodes_default 4 3 (by_order 3 Quad_Linear) k points T).
  - taken1 8. exact (take_nodes 8 2 (Element 2 Quad_Quadratic) k points T).
  - taken1 10. exact (take_nodes 8 3 (Element 3 Quad_Quadratic) k points T).
  - taken1 2. exact (take_nodes_default 4 3 (by_order 3 Tetrahedron_Linear) k points T).
  - taken1 4. exact (take_nodes 10 3 (Element 3 Tetrahedron_Quadratic) k points T).
  - taken1 2. exact (take_nodes_default 8 3 (by_order 3 Hexahedron_Linear) k points T).
  - taken1 4. exact (take_nodes 20 3 (Element 3 Hexahedron_Quadratic) k points T).
Qed.
Lemma in_one_order : forall f D o k points, exists_in f D -> f <> OfSegments -> table (NumberOfNodes (element_of f Linear)) D points ->
  function_of f [together k (NumberOfNodes (element_of f Linear)) D points; OrderV o] = by_order D (element_of f Linear) points o.
Proof.
  intros f D o k points HD Hf T. destruct (promoted f D o points HD Hf T) as (nodes & E & _).
  destruct f; try contradiction; cbn [exists_in function_of element_of] in *;
    (destruct HD as [HD|HD] || idtac); subst D; cbn [NumberOfNodes] in *.
  all: overloads; rewrite E.
  - taken1 4. rewrite <- E. exact (take_nodes_order 3 2 (by_order 2 Triangle_Linear) k points o T).
  - taken1 6. rewrite <- E. exact (take_nodes_order 3 3 (by_order 3 Triangle_Linear) k points o T).
  - taken1 4. rewrite <- E. exact (take_nodes_order 4 2 (by_order 2 Quad_Linear) k points o T).
  - taken1 6. rewrite <- E. exact (take_nodes_order 4 3 (by_order 3 Quad_Linear) k points o T).
  - taken1 2. rewrite <- E. exact (take_nodes_order 4 3 (by_order 3 Tetrahedron_Linear) k points o T).
  - taken1 2. rewrite <- E. exact (take_nodes_order 8 3 (by_order 3 Hexahedron_Linear) k points o T).
Qed.
(** A segment in one dimension: numbers, or an array of numbers. *)
Lemma take_floats : forall n f xs, length xs = n -> try_overload true (map Float xs) (f_floats n f) = Some (f (map (fun x => [x]) xs)).
Proof.
  intros n f xs <-. unfold try_overload, f_floats; cbn [params defaults body].
  assert (E : load_all true (repeat PFloat (length xs)) [] (map Float xs) = Some (map LFloat xs)).
  { induction xs as [|x xs IH]; cbn [length repeat map load_all load]; [reflexivity|]. rewrite IH. reflexivity. }
  rewrite E. f_equal. f_equal. clear E. induction xs as [|x xs IH]; cbn; [reflexivity|]. rewrite IH. reflexivity.
Qed.
Lemma segment_of_numbers : forall o xs, length xs = NumberOfNodes (element_of OfSegments o) ->
  Segment (map Float xs) = Some (Element 1 (element_of OfSegments o) (map (fun x => [x]) xs)).
Proof.
  intros o xs H. assert (L : length (map Float xs) = NumberOfNodes (element_of OfSegments o)) by (rewrite map_length; exact H).
  assert (exists x vs, map Float xs = Float x :: vs) as (x & vs & V). { destruct xs; [destruct o; discriminate|]. eexists; eexists; reflexivity. }
  destruct o; cbn [element_of NumberOfNodes] in *; overloads.
  - taken 5 L V. exact (take_floats 2 (Element 1 Segment_Linear) xs H).
  - taken 11 L V. exact (take_floats 3 (Element 1 Segment_Quadratic) xs H).
Qed.
Lemma segment_of_array : forall o k xs, length xs = NumberOfNodes (element_of OfSegments o) ->
  Segment [Arr k (Vec xs)] = Some (Element 1 (element_of OfSegments o) (map (fun x => [x]) xs)).
Proof.
  intros o k xs H.
  destruct o; cbn [element_of NumberOfNodes] in *; overloads.
  - taken1 4. unfold try_overload, f_column; cbn [params defaults body load_all load]. rewrite H. reflexivity.
  - taken1 10. unfold try_overload, f_column; cbn [params defaults body load_all load]. rewrite H. reflexivity.
Qed.
(** Without nodes. *)
Definition smallest (f : family) : nat := match f with OfSegments => 1 | OfTriangles | OfQuads => 2 | _ => 3 end.
Lemma without_nodes : forall f o,
  function_of f [] = Some (Element (smallest f) (element_of f Linear) (reference_nodes (smallest f) (element_of f Linear))) /\
  function_of f [OrderV o] = Some (Element (smallest f) (element_of f o) (reference_nodes (smallest f) (element_of f o))).
Proof. intros [| | | |] [|]; split; reflexivity. Qed.
Lemma without_nodes_in : forall f d o, In f [OfSegments; OfTriangles; OfQuads] -> exists_in f (number d) ->
  function_of f [DimensionV d] = Some (Element (number d) (element_of f Linear) (reference_nodes (number d) (element_of f Linear))) /\
  function_of f [DimensionV d; OrderV o] = Some (Element (number d) (element_of f o) (reference_nodes (number d) (element_of f o))).
Proof.
  intros f d o H E. destruct H as [<-|[<-|[<-|[]]]]; destruct d; cbn [exists_in number] in E; try (exfalso; lia); destruct o; split; reflexivity.
Qed.

(** ** Whatever the arguments *)
Definition faithful (f : family) (vs : list value) (m : made) : Prop :=
  exists D o nodes, m = Element D (element_of f o) nodes /\ exists_in f D /\ table (NumberOfNodes (element_of f o)) D nodes /\
    (Forall without_numbers vs /\ reference_in D (element_of f o) nodes \/
     concat nodes = concat (map numbers vs) \/
     o = Quadratic /\ exists linear, table (NumberOfNodes (element_of f Linear)) D linear /\ concat linear = concat (map numbers vs) /\
       same_geometry D (element_of f Linear) linear (element_of f Quadratic) nodes).
Definition all_faithful (f : family) (o : overload) : Prop := forall c vs m, try_overload c vs o = Some m -> faithful f vs m.
Lemma no_default : forall c ps vs l, load_all c ps [] vs = Some l ->
  Forall2 fits ps l /\ concat (map numbers vs) = concat (map numbers_in l) /\ (Forall (fun p => p = PDimension \/ p = POrder) ps -> Forall without_numbers vs).
Proof.
  intros c ps vs l E. destruct (load_all_correct _ _ _ _ _ E) as (ps1 & ps2 & l1 & ds' & -> & B & -> & C & F & G & K).
  assert (ps2 = [] /\ ds' = []) as [-> ->]. { destruct G as [G|(G1 & G2 & _)]; [exact G|]. destruct ps2; [contradiction|discriminate]. }
  rewrite !app_nil_r. split; [exact C|]. split; [exact F|exact K].
Qed.
Lemma faithful_reference : forall f D o vs, exists_in f D -> Forall without_numbers vs -> faithful f vs (default_element D (element_of f o)).
Proof.
  intros f D o vs H W. exists D, o, (reference_nodes D (element_of f o)). pose proof (reference_is f D o H) as R.
  split; [reflexivity|]. split; [exact H|]. split; [apply R|]. left. split; assumption.
Qed.
Lemma faithful_points : forall f D o vs points, exists_in f D -> table (NumberOfNodes (element_of f o)) D points ->
  concat points = concat (map numbers vs) -> faithful f vs (Element D (element_of f o) points).
Proof. intros f D o vs points H T E. exists D, o, points. split; [reflexivity|]. split; [exact H|]. split; [exact T|]. right; left. exact E. Qed.
Lemma faithful_by_order : forall f D o vs points m, exists_in f D -> f <> OfSegments -> table (NumberOfNodes (element_of f Linear)) D points ->
  concat points = concat (map numbers vs) -> by_order D (element_of f Linear) points o = Some m -> faithful f vs m.
Proof.
  intros f D o vs points m H Hf T E B. destruct (promoted f D o points H Hf T) as (nodes & B' & G). rewrite B in B'. injection B' as ->.
  exists D, o, nodes. split; [reflexivity|]. split; [exact H|]. destruct o.
  - subst nodes. split; [exact T|]. right; left. exact E.
  - split; [apply G|]. right; right. split; [reflexivity|]. exists points. split; [exact T|]. split; [exact E|exact G].
Qed.
Lemma fits_vectors : forall n D l, Forall2 fits (repeat (PVector D) n) l -> exists points, l = map LVector points /\ table n D points.
Proof.
  induction n as [|n IH]; intros D l H; inversion H as [|p x ps l' Hx Hl]; subst.
  - exists []. split; [reflexivity|]. split; [reflexivity|constructor].
  - destruct (IH D l' Hl) as (points & -> & [L T]). destruct x as [|q| | |]; cbn in Hx; try contradiction. exists (q :: points). split; [reflexivity|].
    split; [cbn; congruence|]. constructor; assumption.
Qed.
Lemma fits_floats : forall n l, Forall2 fits (repeat PFloat n) l -> exists xs, l = map LFloat xs /\ length xs = n.
Proof.
  induction n as [|n IH]; intros l H; inversion H as [|p x ps l' Hx Hl]; subst.
  - exists []. split; reflexivity.
  - destruct (IH l' Hl) as (xs & -> & L). destruct x as [y| | | |]; cbn in Hx; try contradiction. exists (y :: xs). split; [reflexivity|]. cbn; congruence.
Qed.
Lemma numbers_vectors : forall points, concat (map numbers_in (map LVector points)) = concat points.
Proof. induction points as [|p points IH]; cbn; [reflexivity|]. rewrite IH. reflexivity. Qed.
Lemma floats_floats : forall xs, floats_of (map LFloat xs) = map (fun x => [x]) xs.
Proof. induction xs as [|x xs IH]; cbn; [reflexivity|]. rewrite IH. reflexivity. Qed.
Lemma numbers_floats : forall xs, concat (map numbers_in (map LFloat xs)) = concat (map (fun x => [x]) xs).
Proof. induction xs as [|x xs IH]; cbn; [reflexivity|]. rewrite IH. reflexivity. Qed.
Lemma column_table : forall n (xs : list R), length xs = n -> table n 1 (map (fun x => [x]) xs).
Proof. intros n xs H. split; [rewrite map_length; exact H|]. apply Forall_map. apply Forall_forall. reflexivity. Qed.
Lemma concat_column : forall (xs : list R), concat (map (fun x => [x]) xs) = xs.
Proof. induction xs as [|x xs IH]; cbn; [reflexivity|]. rewrite IH. reflexivity. Qed.

Lemma af_default : forall f D o, exists_in f D -> all_faithful f (f_default (default_element D (element_of f o))).
Proof.
  intros f D o H c vs m E. unfold try_overload, f_default in E; cbn [params defaults body] in E. destruct vs; [|discriminate]. injection E as <-.
  apply faithful_reference; [exact H|constructor].
Qed.
Lemma af_order : forall f D, exists_in f D -> all_faithful f (f_order (fun o => default_element D (element_of f o))).
Proof.
  intros f D H c vs m E. unfold try_overload, f_order in E; cbn [params defaults body] in E.
  destruct (load_all c [POrder] [] vs) as [l|] eqn:L; [|discriminate]. destruct (no_default _ _ _ _ L) as (_ & _ & W).
  destruct l as [|[| | | |o] [|]]; try discriminate. injection E as <-. apply faithful_reference; [exact H|]. apply W. constructor; [right; reflexivity|constructor].
Qed.
Lemma af_dimension : forall f (g : dim -> nat), (forall d, exists_in f (g d)) ->
  all_faithful f (f_dimension (fun d => default_element (g d) (element_of f Linear))).
Proof.
  intros f g H c vs m E. unfold try_overload, f_dimension in E; cbn [params defaults body] in E.
  destruct (load_all c [PDimension] [] vs) as [l|] eqn:L; [|discriminate]. destruct (no_default _ _ _ _ L) as (_ & _ & W).
  destruct l as [|[| | |d|] [|]]; try discriminate. injection E as <-. apply faithful_reference; [apply H|]. apply W. repeat constructor.
Qed.
Lemma af_dimension_order : forall f (g : dim -> nat), (forall d, exists_in f (g d)) ->
  all_faithful f (f_dimension_order (fun d o => default_element (g d) (element_of f o))).
Proof.
  intros f g H c vs m E. unfold try_overload, f_dimension_order in E; cbn [params defaults body] in E.
  destruct (load_all c [PDimension; POrder] [] vs) as [l|] eqn:L; [|discriminate]. destruct (no_default _ _ _ _ L) as (_ & _ & W).
  destruct l as [|[| | |d|] [|[| | | |o] [|]]]; try discriminate. injection E as <-. apply faithful_reference; [apply H|]. apply W.
  constructor; [left; reflexivity|]. constructor; [right; reflexivity|constructor].
Qed.
Lemma af_nodes : forall f D o n, exists_in f D -> n = NumberOfNodes (element_of f o) -> all_faithful f (f_nodes n D (Element D (element_of f o))).
Proof.
  intros f D o n H -> c vs m E. unfold try_overload, f_nodes in E; cbn [params defaults body] in E.
  destruct (load_all c _ [] vs) as [l|] eqn:L; [|discriminate]. destruct (no_default _ _ _ _ L) as (F & N & _).
  destruct l as [|[| |rows| |] [|]]; try discriminate. injection E as <-. inversion F as [|? ? ? ? Hx _]; subst. apply faithful_points; [exact H|exact Hx|].
  rewrite N. cbn. rewrite app_nil_r. reflexivity.
Qed.
Lemma af_points : forall f D o n, exists_in f D -> n = NumberOfNodes (element_of f o) -> all_faithful f (f_points n D (Element D (element_of f o))).
Proof.
  intros f D o n H -> c vs m E. unfold try_overload, f_points in E; cbn [params defaults body] in E.
  destruct (load_all c _ [] vs) as [l|] eqn:L; [|discriminate]. destruct (no_default _ _ _ _ L) as (F & N & _).
  destruct (fits_vectors _ _ _ F) as (points & -> & T). injection E as <-. rewrite <- (app_nil_r (map LVector points)), points_vectors; cbn [points_of]. rewrite app_nil_r.
  apply faithful_points; [exact H|exact T|]. rewrite N. symmetry. apply numbers_vectors.
Qed.
Lemma af_column : forall o n, n = NumberOfNodes (element_of OfSegments o) -> all_faithful OfSegments (f_column n (Element 1 (element_of OfSegments o))).
Proof.
  intros o n -> c vs m E. unfold try_overload, f_column in E; cbn [params defaults body] in E.
  destruct (load_all c _ [] vs) as [l|] eqn:L; [|discriminate]. destruct (no_default _ _ _ _ L) as (F & N & _).
  destruct l as [|[|p| | |] [|]]; try discriminate. injection E as <-. inversion F as [|? ? ? ? Hx _]; subst.
  apply (faithful_points OfSegments 1 o vs); [left; reflexivity|apply column_table; exact Hx|].
  rewrite N, concat_column. cbn. rewrite app_nil_r. reflexivity.
Qed.
Lemma af_floats : forall o n, n = NumberOfNodes (element_of OfSegments o) -> all_faithful OfSegments (f_floats n (Element 1 (element_of OfSegments o))).
Proof.
  intros o n -> c vs m E. unfold try_overload, f_floats in E; cbn [params defaults body] in E.
  destruct (load_all c _ [] vs) as [l|] eqn:L; [|discriminate]. destruct (no_default _ _ _ _ L) as (F & N & _).
  destruct (fits_floats _ _ F) as (xs & -> & T). injection E as <-. rewrite floats_floats.
  apply (faithful_points OfSegments 1 o vs); [left; reflexivity|apply column_table; exact T|]. rewrite N. symmetry. apply numbers_floats.
Qed.
(** With the order as an optional last argument. *)
Lemma optional_order : forall c ps vs l, load_all c (ps ++ [POrder]) [LOrder Linear] vs = Some l ->
  exists l1 o, l = l1 ++ [LOrder o] /\ Forall2 fits ps l1 /\ concat (map numbers vs) = concat (map numbers_in l1).
Proof.
  intros c ps vs l E. destruct (load_all_correct _ _ _ _ _ E) as (ps1 & ps2 & l1 & ds' & A & B & -> & C & F & G & K).
  destruct G as [[-> ->]|(G1 & G2 & ->)].
  - rewrite app_nil_r in A. subst ps1. apply Forall2_app_inv_l in C as (l1' & l2 & C1 & C2 & ->). inversion C2 as [|? x ? ? Hx Hn]; subst. inversion Hn; subst.
    destruct x as [| | | |o]; cbn in Hx; try contradiction. exists l1', o. rewrite app_nil_r. split; [reflexivity|]. split; [exact C1|].
    rewrite F, map_app, concat_app. cbn. rewrite app_nil_r. reflexivity.
  - destruct ps2 as [|p [|]]; try discriminate. apply app_inj_tail in A as [-> <-]. exists l1, Linear. split; [reflexivity|]. split; [exact C|exact F].
Qed.
Lemma af_nodes_order : forall f D n, exists_in f D -> f <> OfSegments -> n = NumberOfNodes (element_of f Linear) ->
  all_faithful f (f_nodes_order n D (by_order D (element_of f Linear))).
Proof.
  intros f D n H Hf -> c vs m E. unfold try_overload, f_nodes_order in E; cbn [params defaults body] in E.
  destruct (load_all c _ _ vs) as [l|] eqn:L; [|discriminate]. destruct (optional_order c [PMatrix (NumberOfNodes (element_of f Linear)) D] vs l L) as (l1 & o & -> & F & N).
  inversion F as [|? x ? ? Hx Hn]; subst. inversion Hn; subst. destruct x as [| |rows| |]; cbn in Hx; try contradiction. cbn [app] in E.
  apply (faithful_by_order f D o vs rows m H Hf Hx); [|exact E]. rewrite N. cbn. rewrite app_nil_r. reflexivity.
Qed.
Lemma af_points_order : forall f D n, exists_in f D -> f <> OfSegments -> n = NumberOfNodes (element_of f Linear) ->
  all_faithful f (f_points_order n D (by_order D (element_of f Linear))).
Proof.
  intros f D n H Hf -> c vs m E. unfold try_overload, f_points_order in E; cbn [params defaults body] in E.
  destruct (load_all c _ _ vs) as [l|] eqn:L; [|discriminate]. destruct (optional_order _ _ _ _ L) as (l1 & o & -> & F & N).
  destruct (fits_vectors _ _ _ F) as (points & -> & T). rewrite (nth_vectors _ points [LOrder o] (LOrder Linear) (proj1 T)) in E. cbn [nth] in E.
  rewrite points_vectors in E. cbn [points_of] in E. rewrite app_nil_r in E.
  apply (faithful_by_order f D o vs points m H Hf T); [|exact E]. rewrite N. symmetry. apply numbers_vectors.
Qed.
Lemma dispatch_faithful : forall f t vs m, Forall (all_faithful f) t -> dispatch t vs = Some m -> faithful f vs m.
Proof.
  intros f t vs m H E. destruct (dispatch_in _ _ _ E) as (c & o & Ho & E'). rewrite Forall_forall in H. exact (H o Ho c vs m E').
Qed.
Lemma every_call : forall f vs m, function_of f vs = Some m -> faithful f vs m.
Proof.
  intros f vs m. destruct f; cbn [function_of]; apply dispatch_faithful.
  - repeat apply Forall_cons; try apply Forall_nil.
    + apply (af_default OfSegments 1 Linear). left; reflexivity.
    + apply (af_dimension OfSegments number). intros []; cbn; auto.
    + intros c vs' m' E. apply (af_order OfSegments 1 (or_introl eq_refl) c vs' m'). rewrite <- E. unfold try_overload; cbn [params defaults body f_order].
      destruct (load_all c [POrder] [] vs') as [[|[| | | |[|]] [|]]|]; reflexivity.
    + intros c vs' m' E. apply (af_dimension_order OfSegments number ltac:(intros []; cbn; auto) c vs' m'). rewrite <- E. unfold try_overload; cbn [params defaults body f_dimension_order].
      destruct (load_all c [PDimension; POrder] [] vs') as [[|[| | | |] [|[| | | |[|]] [|]]]|]; reflexivity.
    + apply (af_column Linear); reflexivity.
    + apply (af_floats Linear); reflexivity.
    + apply (af_nodes OfSegments 2 Linear); [cbn; auto|reflexivity].
    + apply (af_points OfSegments 2 Linear); [cbn; auto|reflexivity].
    + apply (af_nodes OfSegments 3 Linear); [cbn; auto|reflexivity].
    + apply (af_points OfSegments 3 Linear); [cbn; auto|reflexivity].
    + apply (af_column Quadratic); reflexivity.
    + apply (af_floats Quadratic); reflexivity.
    + apply (af_nodes OfSegments 2 Quadratic); [cbn; auto|reflexivity].
    + apply (af_points OfSegments 2 Quadratic); [cbn; auto|reflexivity].
    + apply (af_nodes OfSegments 3 Quadratic); [cbn; auto|reflexivity].
    + apply (af_points OfSegments 3 Quadratic); [cbn; auto|reflexivity].
  - repeat apply Forall_cons; try apply Forall_nil.
    + apply (af_default OfTriangles 2 Linear). left; reflexivity.
    + apply (af_dimension OfTriangles (fun d => match d with D2 => 2 | _ => 3 end)). intros []; cbn; auto.
    + intros c vs' m' E. apply (af_order OfTriangles 2 (or_introl eq_refl) c vs' m'). rewrite <- E. unfold try_overload; cbn [params defaults body f_order].
      destruct (load_all c [POrder] [] vs') as [[|[| | | |[|]] [|]]|]; reflexivity.
    + intros c vs' m' E. apply (af_dimension_order OfTriangles (fun d => match d with D2 => 2 | _ => 3 end) ltac:(intros []; cbn; auto) c vs' m'). rewrite <- E. unfold try_overload; cbn [params defaults body f_dimension_order].
      destruct (load_all c [PDimension; POrder] [] vs') as [[|[| | | |] [|[| | | |[|]] [|]]]|]; reflexivity.
    + apply (af_nodes_order OfTriangles 2); [cbn; auto|discriminate|reflexivity].
    + apply (af_points_order OfTriangles 2); [cbn; auto|discriminate|reflexivity].
    + apply (af_nodes_order OfTriangles 3); [cbn; auto|discriminate|reflexivity].
    + apply (af_points_order OfTriangles 3); [cbn; auto|discriminate|reflexivity].
    + apply (af_nodes OfTriangles 2 Quadratic); [cbn; auto|reflexivity].
    + apply (af_points OfTriangles 2 Quadratic); [cbn; auto|reflexivity].
    + apply (af_nodes OfTriangles 3 Quadratic); [cbn; auto|reflexivity].
    + apply (af_points OfTriangles 3 Quadratic); [cbn; auto|reflexivity].
  - repeat apply Forall_cons; try apply Forall_nil.
    + apply (af_default OfQuads 2 Linear). left; reflexivity.
    + apply (af_dimension OfQuads (fun d => match d with D2 => 2 | _ => 3 end)). intros []; cbn; auto.
    + intros c vs' m' E. apply (af_order OfQuads 2 (or_introl eq_refl) c vs' m'). rewrite <- E. unfold try_overload; cbn [params defaults body f_order].
      destruct (load_all c [POrder] [] vs') as [[|[| | | |[|]] [|]]|]; reflexivity.
    + intros c vs' m' E. apply (af_dimension_order OfQuads (fun d => match d with D2 => 2 | _ => 3 end) ltac:(intros []; cbn; auto) c vs' m'). rewrite <- E. unfold try_overload; cbn [params defaults body f_dimension_order].
      destruct (load_all c [PDimension; POrder] [] vs') as [[|[| | | |] [|[| | | |[|]] [|]]]|]; reflexivity.
    + apply (af_nodes_order OfQuads 2); [cbn; auto|discriminate|reflexivity].
    + apply (af_points_order OfQuads 2); [cbn; auto|discriminate|reflexivity].
    + apply (af_nodes_order OfQuads 3); [cbn; auto|discriminate|reflexivity].
    + apply (af_points_order OfQuads 3); [cbn; auto|discriminate|reflexivity].
    + apply (af_nodes OfQuads 2 Quadratic); [cbn; auto|reflexivity].
    + apply (af_points OfQuads 2 Quadratic); [cbn; auto|reflexivity].
    + apply (af_nodes OfQuads 3 Quadratic); [cbn; auto|reflexivity].
    + apply (af_points OfQuads 3 Quadratic); [cbn; auto|reflexivity].
  - repeat apply Forall_cons; try apply Forall_nil.
    + apply (af_default OfTetrahedra 3 Linear). reflexivity.
    + intros c vs' m' E. apply (af_order OfTetrahedra 3 eq_refl c vs' m'). rewrite <- E. unfold try_overload; cbn [params defaults body f_order].
      destruct (load_all c [POrder] [] vs') as [[|[| | | |[|]] [|]]|]; reflexivity.
    + apply (af_nodes_order OfTetrahedra 3); [reflexivity|discriminate|reflexivity].
    + apply (af_points_order OfTetrahedra 3); [reflexivity|discriminate|reflexivity].
    + apply (af_nodes OfTetrahedra 3 Quadratic); reflexivity.
    + apply (af_points OfTetrahedra 3 Quadratic); reflexivity.
  - repeat apply Forall_cons; try apply Forall_nil.
    + apply (af_default OfHexahedra 3 Linear). reflexivity.
    + intros c vs' m' E. apply (af_order OfHexahedra 3 eq_refl c vs' m'). rewrite <- E. unfold try_overload; cbn [params defaults body f_order].
      destruct (load_all c [POrder] [] vs') as [[|[| | | |[|]] [|]]|]; reflexivity.
    + apply (af_nodes_order OfHexahedra 3); [reflexivity|discriminate|reflexivity].
    + apply (af_points_order OfHexahedra 3); [reflexivity|discriminate|reflexivity].
    + apply (af_nodes OfHexahedra 3 Quadratic); reflexivity.
    + apply (af_points OfHexahedra 3 Quadratic); reflexivity.
Qed.

(** ** Rectangular hexahedra *)
Lemma rectangular_of_points : forall o ks points, length ks = NumberOfNodes (element_of OfHexahedra o) ->
  table (NumberOfNodes (element_of OfHexahedra o)) 3 points ->
  RectangularHexahedron (separately ks points) = Some (Element 3 (element_of OfHexahedra o) points).
Proof.
  intros o ks points Hk T. assert (N : 0 < NumberOfNodes (element_of OfHexahedra o)) by (destruct o; cbn; lia).
  destruct (first_point _ 3 ks points N Hk T) as (k & p & vs & V & Lp).
  assert (L : length (separately ks points) = NumberOfNodes (element_of OfHexahedra o)) by (rewrite separately_length; [apply T|rewrite Hk; symmetry; apply T]).
  unfold RectangularHexahedron, RectangularHexahedron_overloads. destruct o; cbn [element_of NumberOfNodes] in *.
  - taken 6 L V. exact (take_points_default 8 3 (by_order 3 Hexahedron_Linear) ks points Hk T).
  - taken 8 L V. exact (take_points 20 3 (Element 3 Hexahedron_Quadratic) ks points Hk T).
Qed.
Lemma rectangular_of_array : forall o k points, table (NumberOfNodes (element_of OfHexahedra o)) 3 points ->
  RectangularHexahedron [together k (NumberOfNodes (element_of OfHexahedra o)) 3 points] =
  Some (Rectangular (rectangular_order o) (RectangularHexahedron_of (element_of OfHexahedra o) points)).
Proof.
  intros o k points T. unfold RectangularHexahedron, RectangularHexahedron_overloads. destruct o; cbn [element_of NumberOfNodes] in *.
  - taken1 5. exact (take_nodes_default 8 3 (fun rows o => Some (Rectangular (rectangular_order o) (RectangularHexahedron_of Hexahedron_Linear rows))) k points T).
  - taken1 7. exact (take_nodes 20 3 (fun rows => Rectangular RectangularHexahedron_Quadratic (RectangularHexahedron_of Hexahedron_Quadratic rows)) k points T).
Qed.
Lemma rectangular_of_array_order : forall o k points, table 8 3 points ->
  RectangularHexahedron [together k 8 3 points; OrderV o] = Some (Rectangular (rectangular_order o) (RectangularHexahedron_of Hexahedron_Linear points)).
Proof.
  intros o k points T. unfold RectangularHexahedron, RectangularHexahedron_overloads.
  taken1 5. exact (take_nodes_order 8 3 (fun rows o => Some (Rectangular (rectangular_order o) (RectangularHexahedron_of Hexahedron_Linear rows))) k points o T).
Qed.
Lemma vec3 : forall k (p : list R), length p = 3 -> load true (PVector 3) (Arr k (Vec p)) = Some (LVector p).
Proof. intros k p H. cbn [load]. rewrite H. reflexivity. Qed.
Ltac rejectedo := intros; repeat (apply Forall_cons; [first
  [ solve [apply reject_arity; cbn; lia] | solve [eapply reject_first; reflexivity] ]|]); apply Forall_nil.
Lemma rectangular_boxes : forall o k1 k2 k3 c H M, length c = 3 -> length H = 3 -> table 3 3 M ->
  RectangularHexahedron [OrderV o; Arr k1 (Vec c)] = Some (Rectangular (rectangular_order o) (box c [2%R; 2%R; 2%R] identity)) /\
  RectangularHexahedron [OrderV o; Arr k1 (Vec c); Arr k2 (Vec H)] = Some (Rectangular (rectangular_order o) (box c H identity)) /\
  RectangularHexahedron [OrderV o; Arr k1 (Vec c); Arr k2 (Vec H); together k3 3 3 M] = Some (Rectangular (rectangular_order o) (box c H M)).
Proof.
  intros o k1 k2 k3 c H M Hc HH HM. unfold RectangularHexahedron, RectangularHexahedron_overloads. split; [|split].
  - eapply (dispatch_at 2); [reflexivity|cbn [firstn]; rejectedo|cbn [skipn]; rejectedo|]. unfold try_overload; cbn [params defaults body load_all].
    rewrite vec3 by exact Hc. reflexivity.
  - eapply (dispatch_at 3); [reflexivity|cbn [firstn]; rejectedo|cbn [skipn]; rejectedo|]. unfold try_overload; cbn [params defaults body load_all].
    rewrite !vec3 by assumption. reflexivity.
  - eapply (dispatch_at 4); [reflexivity|cbn [firstn]; rejectedo|cbn [skipn]; rejectedo|]. unfold try_overload; cbn [params defaults body load_all].
    rewrite !vec3, load_together by assumption. reflexivity.
Qed.
