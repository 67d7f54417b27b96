(** Lemmas on the grids used from Python: the calls that are answered, positions, indices out of range. *)

From Coq Require Import String ZArith Reals Lra Lia List Arith Bool.
From Flocq Require Import Core.Raux.
From Verif Require Import GridModel GridSpec GridGeoModel GridGeoSpec GridMachModel GridMachProofs GridProofs GridGeoProofs
  HashGridModel PyGridModel PyGridSpec PyGridProofs.
Import ListNotations.
Open Scope nat_scope.

(** ** The calls that are answered *)
Lemma as_integer_stands : forall v z, as_integer true v = Some z <-> stands_for v z.
Proof.
  intros v z. split.
  - destruct v; try discriminate; cbn; intros H; try (injection H as <-; constructor).
    + injection H as <-. destruct b; constructor.
    + destruct l as [|x [|]]; try discriminate. injection H as <-. constructor.
  - intros []; reflexivity.
Qed.
Lemma load_index_iff : forall v, load true PIndex v <> None <-> index_argument v.
Proof.
  intros v. cbn [load]. unfold index_argument. destruct (as_integer true v) as [z|] eqn:E; cbn [within].
  - apply as_integer_stands in E. unfold int64_range. destruct (Z.leb_spec (- 2 ^ 63) z); destruct (Z.ltb_spec z (2 ^ 63)); cbn [andb option_map]; split; intros H1.
    + exists z. split; [assumption|lia].
    + discriminate.
    + exfalso. apply H1. reflexivity.
    + destruct H1 as (z' & S & B). apply as_integer_stands in S, E. assert (z = z') by congruence. lia.
    + exfalso. apply H1. reflexivity.
    + destruct H1 as (z' & S & B). apply as_integer_stands in S, E. assert (z = z') by congruence. lia.
    + exfalso. apply H1. reflexivity.
    + destruct H1 as (z' & S & B). apply as_integer_stands in S, E. assert (z = z') by congruence. lia.
  - cbn. split; [intros H; exfalso; apply H; reflexivity|]. intros (z & S & _). apply as_integer_stands in S. congruence.
Qed.
Lemma load_unsigned_iff : forall v, load true PUnsigned v <> None <-> unsigned_argument v.
Proof.
  intros v. cbn [load]. unfold unsigned_argument. destruct (as_integer true v) as [z|] eqn:E; cbn [within].
  - apply as_integer_stands in E. unfold uint64_range. destruct (Z.leb_spec 0 z); destruct (Z.ltb_spec z (2 ^ 64)); cbn [andb option_map]; split; intros H1.
    + exists z. split; [assumption|lia].
    + discriminate.
    + exfalso. apply H1. reflexivity.
    + destruct H1 as (z' & S & B). apply as_integer_stands in S, E. assert (z = z') by congruence. lia.
    + exfalso. apply H1. reflexivity.
    + destruct H1 as (z' & S & B). apply as_integer_stands in S, E. assert (z = z') by congruence. lia.
    + exfalso. apply H1. reflexivity.
    + destruct H1 as (z' & S & B). apply as_integer_stands in S, E. assert (z = z') by congruence. lia.
  - cbn. split; [intros H; exfalso; apply H; reflexivity|]. intros (z & S & _). apply as_integer_stands in S. congruence.
Qed.
Lemma entries_iff : forall d D v, entries true d D v <> None <-> vector_argument D v.
Proof.
  intros d D v. unfold vector_argument. split.
  - destruct (entries true d D v) as [l|] eqn:E; [|congruence]. intros _. apply entries_written in E. eauto.
  - intros (l & H). apply (entries_written d) in H. congruence.
Qed.
Lemma option_map_none : forall A B (f : A -> B) o, option_map f o <> None <-> o <> None.
Proof. intros A B f [x|]; cbn; split; congruence. Qed.
Lemma load_world_iff : forall D v, load true (PWorld D) v <> None <-> vector_argument D v.
Proof. intros. cbn [load]. rewrite option_map_none. apply entries_iff. Qed.
Lemma load_coordinates_iff : forall D v, load true (PCoordinates D) v <> None <-> vector_argument D v.
Proof. intros. cbn [load]. rewrite option_map_none. apply entries_iff. Qed.
Lemma load_bool_iff : forall v, load true PBool v <> None <-> truth_argument v.
Proof.
  intros v. destruct v; cbn; split; intros H; try congruence; try exact I; try tauto;
  try (destruct l as [|x [|]]; cbn in *; try congruence; try exact I; try tauto).
Qed.
Lemma load_float_iff : forall v, load true PFloat v <> None <-> number_argument v.
Proof.
  intros v. destruct v; cbn; split; intros H; try congruence; try exact I; try tauto;
  try (destruct l as [|x [|]]; cbn in *; try congruence; try exact I; try tauto).
Qed.

Definition harmless (imp : bool) (r : result) : Prop := cast imp r <> Raises.
Lemma dispatch_some : forall imp chain vs, (forall o, In o chain -> forall c r, try_overload c vs o = Some r -> harmless imp r) ->
  (forall o, In o chain -> try_overload false vs o <> None -> try_overload true vs o <> None) ->
  (dispatch imp chain vs <> Raises <-> exists o, In o chain /\ try_overload true vs o <> None).
Proof.
  intros imp chain vs HG HM. unfold dispatch.
  assert (F : forall c, match first_of (try_overload c vs) chain with
     | Some r => harmless imp r /\ exists o, In o chain /\ try_overload c vs o <> None
     | None => forall o, In o chain -> try_overload c vs o = None end).
  { intros c. clear HM. induction chain as [|o chain IH]; [intros o []|]. cbn. destruct (try_overload c vs o) as [r|] eqn:E.
    - split; [apply (HG o (or_introl eq_refl) c r E)|]. exists o. split; [left; reflexivity|congruence].
    - specialize (IH (fun o' Ho' => HG o' (or_intror Ho'))). destruct (first_of (try_overload c vs) chain) as [r|].
      + destruct IH as [H1 (o' & H2 & H3)]. split; [assumption|]. exists o'. auto.
      + intros o' [->|Ho']; auto. }
  pose proof (F false) as F0. pose proof (F true) as F1. destruct (first_of (try_overload false vs) chain) as [r|].
  - destruct F0 as [H1 (o & H2 & H3)]. split; [intros _; exists o; auto|intros _; exact H1].
  - destruct (first_of (try_overload true vs) chain) as [r|].
    + destruct F1 as [H1 (o & H2 & H3)]. split; [intros _; exists o; auto|intros _; exact H1].
    + split; [congruence|]. intros (o & H2 & H3). rewrite F1 in H3 by assumption. congruence.
Qed.
Lemma load_all_mono : forall ps ds vs l, load_all false ps ds vs = Some l -> load_all true ps ds vs = Some l.
Proof.
  induction ps as [|p ps IH]; intros ds [|v vs] l; cbn [load_all]; try exact (fun H => H).
  destruct (load false p v) as [x|] eqn:E; [|discriminate]. rewrite (load_mono _ _ _ E).
  destruct (load_all false ps ds vs) as [m|] eqn:F; [|discriminate]. rewrite (IH _ _ _ F). exact (fun H => H).
Qed.
Lemma try_mono : forall vs o, try_overload false vs o <> None -> try_overload true vs o <> None.
Proof.
  intros vs o. unfold try_overload. destruct (load_all false (params o) (defaults o) vs) as [l|] eqn:E; [|congruence].
  rewrite (load_all_mono _ _ _ _ E). exact (fun H => H).
Qed.
Lemma try0 : forall vs r, try_overload true vs (f0 r) <> None <-> vs = [].
Proof. intros [|v vs] r; cbn; split; congruence. Qed.
Lemma try1 : forall vs p f, (forall v x, load true p v = Some x -> f x <> None) ->
  (try_overload true vs (f1 p f) <> None <-> exists v, vs = [v] /\ load true p v <> None).
Proof.
  intros vs p f HF. unfold try_overload. cbn [f1 params defaults body]. destruct vs as [|v [|w vs]]; cbn [load_all].
  - cbn. split; [congruence|]. intros (v & E & _). discriminate E.
  - destruct (load true p v) as [x|] eqn:E.
    + split; [|intros _; apply (HF v x E)]. intros _. exists v. split; [reflexivity|congruence].
    + split; [congruence|]. intros (v' & E1 & E2). injection E1 as <-. congruence.
  - destruct (load true p v) as [x|]; split; try congruence; intros (v' & E1 & E2); discriminate E1.
Qed.
Lemma try2 : forall vs p q f, (forall v w x y, load true p v = Some x -> load true q w = Some y -> f x y <> None) ->
  (try_overload true vs (f2 p q [] f) <> None <-> exists v w, vs = [v; w] /\ load true p v <> None /\ load true q w <> None).
Proof.
  intros vs p q f HF. unfold try_overload. cbn [f2 params defaults body]. destruct vs as [|v [|w [|u vs]]]; cbn [load_all length Nat.eqb].
  - split; [congruence|]. intros (v & w & E & _). discriminate E.
  - destruct (load true p v); split; try congruence; intros (v' & w & E & _); discriminate E.
  - destruct (load true p v) as [x|] eqn:E; [destruct (load true q w) as [y|] eqn:E'|].
    + split; [|intros _; apply (HF v w x y E E')]. intros _. exists v, w. repeat split; congruence.
    + split; [congruence|]. intros (v' & w' & E1 & E2 & E3). injection E1 as <- <-. congruence.
    + split; [congruence|]. intros (v' & w' & E1 & E2 & E3). injection E1 as <- <-. congruence.
  - destruct (load true p v); [destruct (load true q w)|]; split; try congruence; intros (v' & w' & E & _); discriminate E.
Qed.
Lemma try2_default : forall vs p q z f, (forall v w x y, load true p v = Some x -> load true q w = Some y -> f x y <> None) ->
  (forall v x, load true p v = Some x -> f x z <> None) ->
  (try_overload true vs (f2 p q [z] f) <> None <->
   (exists v, vs = [v] /\ load true p v <> None) \/ (exists v w, vs = [v; w] /\ load true p v <> None /\ load true q w <> None)).
Proof.
  intros vs p q z f HF HZ. unfold try_overload. cbn [f2 params defaults body]. destruct vs as [|v [|w [|u vs]]]; cbn [load_all length Nat.eqb].
  - split; [congruence|]. intros [(v & E & _)|(v & w & E & _)]; discriminate E.
  - destruct (load true p v) as [x|] eqn:E.
    + split; [|intros _; apply (HZ v x E)]. intros _. left. exists v. split; congruence.
    + split; [congruence|]. intros [(v' & E1 & E2)|(v' & w & E1 & _)]; [|discriminate E1]. injection E1 as <-. congruence.
  - destruct (load true p v) as [x|] eqn:E; [destruct (load true q w) as [y|] eqn:E'|].
    + split; [|intros _; apply (HF v w x y E E')]. intros _. right. exists v, w. repeat split; congruence.
    + split; [congruence|]. intros [(v' & E1 & E2)|(v' & w' & E1 & E2 & E3)]; [discriminate E1|]. injection E1 as <- <-. congruence.
    + split; [congruence|]. intros [(v' & E1 & E2)|(v' & w' & E1 & E2 & E3)]; [discriminate E1|]. injection E1 as <- <-. congruence.
  - destruct (load true p v); [destruct (load true q w)|]; split; try congruence; intros [(v' & E & _)|(v' & w' & E & _)]; discriminate E.
Qed.
(** A function that takes what its parameter loads, and whose answer can be converted. *)
Lemma total_world : forall D f v x, load true (PWorld D) v = Some x -> on_world f x <> None.
Proof. intros D f v x. cbn [load]. destruct (entries true Float64 D v); cbn; [|discriminate]. intros E. injection E as <-. cbn. discriminate. Qed.
Lemma total_coordinates : forall D f v x, load true (PCoordinates D) v = Some x -> on_coordinates f x <> None.
Proof. intros D f v x. cbn [load]. destruct (entries true Int64 D v); cbn; [|discriminate]. intros E. injection E as <-. cbn. discriminate. Qed.
Lemma total_index : forall f v x, load true PIndex v = Some x -> on_index f x <> None.
Proof. intros f v x. cbn [load]. destruct (within int64_range (as_integer true v)); cbn; [|discriminate]. intros E. injection E as <-. cbn. discriminate. Qed.
Lemma total_unsigned : forall f v x, load true PUnsigned v = Some x -> on_unsigned f x <> None.
Proof. intros f v x. cbn [load]. destruct (within uint64_range (as_integer true v)); cbn; [|discriminate]. intros E. injection E as <-. cbn. discriminate. Qed.
Lemma load_bool_form : forall v y, load true PBool v = Some y -> exists b, y = LBool b.
Proof.
  intros v y. destruct v; cbn; try discriminate; intros E; try (injection E as <-; eauto).
  destruct l as [|x [|]]; try discriminate. injection E as <-. eauto.
Qed.
Lemma load_float_form : forall v y, load true PFloat v = Some y -> exists x, y = LFloat x.
Proof.
  intros v y. destruct v; cbn; try discriminate; intros E; try (injection E as <-; eauto).
  destruct l as [|x [|]]; try discriminate. injection E as <-. eauto.
Qed.
Lemma load_world_form : forall D v y, load true (PWorld D) v = Some y -> exists p, y = LWorld p.
Proof. intros D v y. cbn [load]. destruct (entries true Float64 D v); cbn; [|discriminate]. intros E. injection E as <-. eauto. Qed.

Local Open Scope string_scope.
Definition own_of (c : pyclass) : list (string * list overload) := match c with Class own _ => own end.
Lemma find_in_grid : forall g name, find_method (Grid g) name =
  match own_chain (own_of (Grid g)) name with Some c => Some c
  | None => match own_chain (own_of (BaseMultidimensionalGrid g)) name with Some c => Some c | None => own_chain (own_of (BaseGrid g)) name end end.
Proof. intros g name. cbn [find_method Grid BaseMultidimensionalGrid BaseGrid own_of].
  destruct (own_chain _ name); [reflexivity|]. destruct (own_chain _ name); [reflexivity|]. destruct (own_chain _ name); reflexivity.
Qed.
(** The names of the methods *)
Lemma grid_names : forall g name, usual g -> find_method (Grid g) name <> None ->
  In name ["number_of_cells"; "number_of_nodes"; "anchor_position"; "N"; "H"; "size"; "cell_index_containing"; "cells_around"; "contains";
           "node_index_at"; "node_coordinates_at"; "node"; "cell_index_at"; "cell_coordinates_at"; "node_indices_of"; "cell_at";
           "number_of_edges"; "edge"] \/ (length g = 3%nat /\ In name ["number_of_faces"; "face"]).
Proof.
  intros g name (_ & L & _) H. rewrite find_in_grid in H.
  assert (K : forall own, own_chain own name <> None -> In name (map fst own)).
  { induction own as [|[n c] own IH]; cbn; [congruence|]. destruct (String.eqb_spec n name); [auto|]. intros X. right. auto. }
  assert (N1 : (length g = 2%nat /\ map fst (own_of (Grid g)) = ["node_indices_of"; "cell_at"; "number_of_edges"; "edge"]) \/
               (length g = 3%nat /\ map fst (own_of (Grid g)) = ["node_indices_of"; "cell_at"; "number_of_edges"; "edge"; "number_of_faces"; "face"])).
  { destruct L as [L|L]; [destruct g as [|a [|b [|]]]; try discriminate L; left; split; reflexivity|
      destruct g as [|a [|b [|c [|]]]]; try discriminate L; right; split; reflexivity]. }
  assert (N2 : map fst (own_of (BaseMultidimensionalGrid g)) = ["node_index_at"; "node_coordinates_at"; "node"; "cell_index_at"; "cell_coordinates_at"])
    by reflexivity.
  assert (N3 : map fst (own_of (BaseGrid g)) = ["number_of_cells"; "number_of_nodes"; "anchor_position"; "N"; "H"; "size"; "cell_index_containing";
     "cell_coordinates_at"; "cells_around"; "node"; "contains"]) by reflexivity.
  destruct (own_chain (own_of (Grid g)) name) eqn:E1.
  { assert (In name (map fst (own_of (Grid g)))) as X by (apply K; congruence).
    destruct N1 as [[LL N1]|[LL N1]]; rewrite N1 in X; cbn in X |- *; tauto. }
  destruct (own_chain (own_of (BaseMultidimensionalGrid g)) name) eqn:E2.
  { assert (In name (map fst (own_of (BaseMultidimensionalGrid g)))) as X by (apply K; congruence). rewrite N2 in X. cbn in X |- *; tauto. }
  assert (In name (map fst (own_of (BaseGrid g)))) as X by (apply K; congruence). rewrite N3 in X. cbn in X |- *; tauto.
Qed.

(** When a chain with one overload answers *)
Definition plain (r : result) : Prop := forall imp, harmless imp r.
Lemma plain_results : (forall z, plain (RInt z)) /\ (forall b, plain (RBool b)) /\ (forall p, plain (RWorld p)) /\ (forall c, plain (RCoordinates c)) /\
  (forall n, plain (RSubdivisions n)) /\ (forall l, plain (RIndices l)) /\ plain RDivision /\ plain RVoid.
Proof. repeat split; intros; intros ?; intros E; discriminate E. Qed.
Lemma plain_guarded : forall b r, plain r -> plain (guarded b r).
Proof. intros [|] r H; [apply plain_results|exact H]. Qed.
Lemma plain_edges : forall ns i, plain (edge_nodes ns i).
Proof.
  intros ns i. unfold edge_nodes. destruct ns as [|nx [|ny [|nz [|]]]]; try apply plain_results.
  - destruct (m_edge2 nx i). apply plain_results.
  - destruct (_ =? 0)%Z; [apply plain_results|]. destruct (m_edge3 nx ny i). apply plain_results.
Qed.
Lemma plain_faces : forall ns i, plain (face_nodes ns i).
Proof. intros ns i. unfold face_nodes. destruct ns as [|nx [|ny [|nz [|]]]]; try apply plain_results. destruct (_ || _); apply plain_results. Qed.

Lemma single : forall imp o vs, (forall l r, body o l = Some r -> harmless imp r) ->
  (dispatch imp [o] vs <> Raises <-> try_overload true vs o <> None).
Proof.
  intros imp o vs H. rewrite dispatch_some.
  - split; [intros (o' & [<-|[]] & X); exact X|intros X; exists o; split; [left; reflexivity|exact X]].
  - intros o' [<-|[]] c r E. unfold try_overload in E. destruct (load_all c (params o) (defaults o) vs) as [l|]; [|discriminate]. eapply H; eassumption.
  - intros o' _. apply try_mono.
Qed.
Lemma harmless_f0 : forall imp r, plain r -> forall l r', body (f0 r) l = Some r' -> harmless imp r'.
Proof. intros imp r P l r' E. injection E as <-. apply P. Qed.
Lemma harmless_world : forall imp p f, (forall x, plain (f x)) -> forall l r', body (f1 p (on_world f)) l = Some r' -> harmless imp r'.
Proof. intros imp p f P [|x [|]] r' E; try discriminate. cbn in E. destruct x; try discriminate. injection E as <-. apply P. Qed.
Lemma harmless_coordinates : forall imp p f, (forall x, plain (f x)) -> forall l r', body (f1 p (on_coordinates f)) l = Some r' -> harmless imp r'.
Proof. intros imp p f P [|x [|]] r' E; try discriminate. cbn in E. destruct x; try discriminate. injection E as <-. apply P. Qed.
Lemma harmless_index : forall imp p f, (forall x, plain (f x)) -> forall l r', body (f1 p (on_index f)) l = Some r' -> harmless imp r'.
Proof. intros imp p f P [|x [|]] r' E; try discriminate. cbn in E. destruct x; try discriminate. injection E as <-. apply P. Qed.
Lemma harmless_unsigned : forall imp p f, (forall x, plain (f x)) -> forall l r', body (f1 p (on_unsigned f)) l = Some r' -> harmless imp r'.
Proof. intros imp p f P [|x [|]] r' E; try discriminate. cbn in E. destruct x; try discriminate. injection E as <-. apply P. Qed.
Lemma harmless_world_bool : forall imp p q ds f, (forall x y, plain (f x y)) -> forall l r', body (f2 p q ds (on_world_bool f)) l = Some r' -> harmless imp r'.
Proof. intros imp p q ds f P [|x [|y [|]]] r' E; try discriminate. cbn in E. destruct x; try discriminate. destruct y; try discriminate. injection E as <-. apply P. Qed.
Lemma harmless_world_float : forall imp p q ds f, (forall x y, plain (f x y)) -> forall l r', body (f2 p q ds (on_world_float f)) l = Some r' -> harmless imp r'.
Proof. intros imp p q ds f P [|x [|y [|]]] r' E; try discriminate. cbn in E. destruct x; try discriminate. destruct y; try discriminate. injection E as <-. apply P. Qed.

Lemma answers0 : forall imp r vs, plain r -> (dispatch imp [f0 r] vs <> Raises <-> vs = []).
Proof. intros imp r vs P. rewrite single by (apply harmless_f0; assumption). apply try0. Qed.
Lemma answers_world : forall imp D f vs, (forall x, plain (f x)) ->
  (dispatch imp [f1 (PWorld D) (on_world f)] vs <> Raises <-> exists v, vs = [v] /\ vector_argument D v).
Proof.
  intros imp D f vs P. rewrite single by (apply harmless_world; assumption). rewrite try1 by apply total_world.
  split; intros (v & E & H); exists v; (split; [exact E|]); apply load_world_iff; exact H.
Qed.
Lemma answers_coordinates : forall imp D f vs, (forall x, plain (f x)) ->
  (dispatch imp [f1 (PCoordinates D) (on_coordinates f)] vs <> Raises <-> exists v, vs = [v] /\ vector_argument D v).
Proof.
  intros imp D f vs P. rewrite single by (apply harmless_coordinates; assumption). rewrite try1 by apply total_coordinates.
  split; intros (v & E & H); exists v; (split; [exact E|]); apply load_coordinates_iff; exact H.
Qed.
Lemma answers_index : forall imp f vs, (forall x, plain (f x)) ->
  (dispatch imp [f1 PIndex (on_index f)] vs <> Raises <-> exists v, vs = [v] /\ index_argument v).
Proof.
  intros imp f vs P. rewrite single by (apply harmless_index; assumption). rewrite try1 by apply total_index.
  split; intros (v & E & H); exists v; (split; [exact E|]); apply load_index_iff; exact H.
Qed.
Lemma answers_unsigned : forall imp f vs, (forall x, plain (f x)) ->
  (dispatch imp [f1 PUnsigned (on_unsigned f)] vs <> Raises <-> exists v, vs = [v] /\ unsigned_argument v).
Proof.
  intros imp f vs P. rewrite single by (apply harmless_unsigned; assumption). rewrite try1 by apply total_unsigned.
  split; intros (v & E & H); exists v; (split; [exact E|]); apply load_unsigned_iff; exact H.
Qed.
Lemma answers_world_bool : forall imp D b f vs, (forall x y, plain (f x y)) ->
  (dispatch imp [f2 (PWorld D) PBool [LBool b] (on_world_bool f)] vs <> Raises <->
   (exists v, vs = [v] /\ vector_argument D v) \/ (exists v w, vs = [v; w] /\ vector_argument D v /\ truth_argument w)).
Proof.
  intros imp D b f vs P. rewrite single by (apply harmless_world_bool; assumption). rewrite try2_default.
  - split; (intros [(v & E & H)|(v & w & E & H & H')]; [left; exists v; split; [exact E|apply load_world_iff; exact H]|
      right; exists v, w; split; [exact E|]; split; [apply load_world_iff; exact H|apply load_bool_iff; exact H']]).
  - intros v w x y E E'. destruct (load_world_form _ _ _ E) as [p ->]. destruct (load_bool_form _ _ E') as [z ->]. discriminate.
  - intros v x E. destruct (load_world_form _ _ _ E) as [p ->]. discriminate.
Qed.
Lemma answers_world_float : forall imp D e f vs, (forall x y, plain (f x y)) ->
  (dispatch imp [f2 (PWorld D) PFloat [LFloat e] (on_world_float f)] vs <> Raises <->
   (exists v, vs = [v] /\ vector_argument D v) \/ (exists v w, vs = [v; w] /\ vector_argument D v /\ number_argument w)).
Proof.
  intros imp D b f vs P. rewrite single by (apply harmless_world_float; assumption). rewrite try2_default.
  - split; (intros [(v & E & H)|(v & w & E & H & H')]; [left; exists v; split; [exact E|apply load_world_iff; exact H]|
      right; exists v, w; split; [exact E|]; split; [apply load_world_iff; exact H|apply load_float_iff; exact H']]).
  - intros v w x y E E'. destruct (load_world_form _ _ _ E) as [p ->]. destruct (load_float_form _ _ E') as [z ->]. discriminate.
  - intros v x E. destruct (load_world_form _ _ _ E) as [p ->]. discriminate.
Qed.
Lemma answers_two : forall imp D f h vs, (forall x, plain (f x)) -> (forall x, plain (h x)) ->
  (dispatch imp [f1 (PCoordinates D) (on_coordinates f); f1 PIndex (on_index h)] vs <> Raises <->
   exists v, vs = [v] /\ (vector_argument D v \/ index_argument v)).
Proof.
  intros imp D f h vs P Q. rewrite dispatch_some.
  - split.
    + intros (o & [<-|[<-|[]]] & X).
      * rewrite try1 in X by apply total_coordinates. destruct X as (v & -> & X). exists v. split; [reflexivity|]. left. apply load_coordinates_iff. exact X.
      * rewrite try1 in X by apply total_index. destruct X as (v & -> & X). exists v. split; [reflexivity|]. right. apply load_index_iff. exact X.
    + intros (v & -> & [X|X]).
      * eexists. split; [left; reflexivity|]. rewrite try1 by apply total_coordinates. exists v. split; [reflexivity|]. apply load_coordinates_iff. exact X.
      * eexists. split; [right; left; reflexivity|]. rewrite try1 by apply total_index. exists v. split; [reflexivity|]. apply load_index_iff. exact X.
  - intros o Ho c r E. unfold try_overload in E. destruct (load_all c (params o) (defaults o) vs) as [l|]; [|discriminate].
    destruct Ho as [<-|[<-|[]]]; [eapply harmless_coordinates; [exact P|exact E]|eapply harmless_index; [exact Q|exact E]].
  - intros o _. apply try_mono.
Qed.

Lemma answered_calls : forall imp g name vs, usual g -> name <> "cell_at" ->
  (call imp g name vs <> Raises <-> answered (length g) name vs).
Proof.
  intros imp g name vs U NC. split.
  - intros H. assert (F : find_method (Grid g) name <> None).
    { unfold call, call_of in H. destruct (find_method (Grid g) name); congruence. }
    destruct (grid_names g name U F) as [N|[LL N]]; clear F; cbn [In] in N.
    + repeat (destruct N as [<-|N]); try contradiction; try (exfalso; apply NC; reflexivity); revert H; chain_of U; cbn [snd]; intros H;
      first
      [ apply answers0 in H; [subst vs; apply no_argument; cbn; tauto|apply plain_results]
      | apply answers_world_bool in H; [destruct H as [(v & -> & H)|(v & w & -> & H & H')];
          [apply a_point; [cbn; tauto|exact H]|apply a_point_and_a_truth_value; assumption]|intros; apply plain_results]
      | apply answers_world_float in H; [destruct H as [(v & -> & H)|(v & w & -> & H & H')];
          [apply a_point; [cbn; tauto|exact H]|apply a_point_and_a_number; assumption]|intros; apply plain_results]
      | apply answers_world in H; [destruct H as (v & -> & H); apply a_point; [cbn; tauto|exact H]|intros; apply plain_results]
      | apply answers_coordinates in H; [destruct H as (v & -> & H); apply coordinates; [cbn; tauto|exact H]|intros; apply plain_results]
      | apply answers_index in H; [destruct H as (v & -> & H); apply an_index; [cbn; tauto|exact H]|intros; apply plain_guarded, plain_results]
      | apply answers_two in H; [destruct H as (v & -> & [H|H]); [apply coordinates; [cbn; tauto|exact H]|apply an_index; [cbn; tauto|exact H]]
                                |intros; apply plain_results|intros; apply plain_guarded, plain_results]
      | apply answers_unsigned in H; [destruct H as (v & -> & H); apply an_edge; exact H|intros; apply plain_edges] ].
    + destruct g as [|a [|b [|c [|]]]]; try discriminate LL. destruct N as [<-|[<-|[]]]; revert H; (erewrite call_chain by reflexivity); cbn [snd]; intros H.
      * apply answers0 in H; [subst vs; apply number_of_faces_3d; reflexivity|apply plain_results].
      * apply answers_unsigned in H; [destruct H as (v & -> & H); apply a_face; [reflexivity|exact H]|intros; apply plain_faces].
  - intros A. destruct A as [name N|L|name v N H|v w H H'|v w H H'|name v N H|name v N H|v H|v L H].
    + cbn [In] in N. repeat (destruct N as [<-|N]); try contradiction; chain_of U; cbn [snd]; apply answers0; try apply plain_results; reflexivity.
    + destruct g as [|a [|b [|c [|]]]]; try discriminate L. discriminate.
    + cbn [In] in N. repeat (destruct N as [<-|N]); try contradiction; chain_of U; cbn [snd].
      * apply answers_world_bool; [intros; apply plain_results|]. left. exists v. auto.
      * apply answers_world; [intros; apply plain_results|]. exists v. auto.
      * apply answers_world_float; [intros; apply plain_results|]. left. exists v. auto.
    + chain_of U; cbn [snd]. apply answers_world_bool; [intros; apply plain_results|]. right. exists v, w. auto.
    + chain_of U; cbn [snd]. apply answers_world_float; [intros; apply plain_results|]. right. exists v, w. auto.
    + cbn [In] in N. repeat (destruct N as [<-|N]); try contradiction; chain_of U; cbn [snd].
      * apply answers_coordinates; [intros; apply plain_results|]. exists v. auto.
      * apply answers_coordinates; [intros; apply plain_results|]. exists v. auto.
      * apply answers_two; [intros; apply plain_results|intros; apply plain_guarded, plain_results|]. exists v. auto.
    + cbn [In] in N. repeat (destruct N as [<-|N]); try contradiction; chain_of U; cbn [snd].
      * apply answers_index; [intros; apply plain_guarded, plain_results|]. exists v. auto.
      * apply answers_index; [intros; apply plain_guarded, plain_results|]. exists v. auto.
      * apply answers_index; [intros; apply plain_guarded, plain_results|]. exists v. auto.
      * apply answers_two; [intros; apply plain_results|intros; apply plain_guarded, plain_results|]. exists v. auto.
    + chain_of U; cbn [snd]. apply answers_unsigned; [intros; apply plain_edges|]. exists v. auto.
    + destruct g as [|a [|b [|c [|]]]]; try discriminate L. erewrite call_chain by reflexivity. cbn [snd].
      apply answers_unsigned; [intros; apply plain_faces|]. exists v. auto.
Qed.
