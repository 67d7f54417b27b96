(** Simulation between what the writer of a script believes and the heap (C88). *)

From Coq Require Import String List Arith ZArith Bool Lia.
From Verif Require Import MeshModel MeshSpec MeshProofs PyMeshModel PyMeshSpec.
Import ListNotations.
Open Scope nat_scope.

(** ** Variables *)
Lemma lookup_map : forall (A B : Type) (f : A -> B) v l, lookup v (map (fun x => (fst x, f (snd x))) l) = option_map f (lookup v l).
Proof.
  intros A B f v l. unfold lookup. induction l as [|[w x] l IH]; [reflexivity|]. cbn [map find fst snd]. destruct (w =? v); [reflexivity|exact IH].
Qed.
Lemma unbind_map : forall (A B : Type) (f : A -> B) v l,
  unbind v (map (fun x => (fst x, f (snd x))) l) = map (fun x => (fst x, f (snd x))) (unbind v l).
Proof.
  intros A B f v l. unfold unbind. induction l as [|[w x] l IH]; [reflexivity|]. cbn [map filter fst snd].
  destruct (w =? v); cbn [negb]; [exact IH|cbn [map fst snd]; rewrite IH; reflexivity].
Qed.
Lemma lookup_in : forall (A : Type) v (l : list (nat * A)) x, lookup v l = Some x -> In (v, x) l.
Proof.
  intros A v l x. unfold lookup. induction l as [|[w y] l IH]; [discriminate|]. cbn [find fst].
  destruct (Nat.eqb_spec w v) as [-> | _]; [cbn; intros H; injection H as ->; left; reflexivity|intros H; right; apply IH; exact H].
Qed.
Lemma in_unbind : forall (A : Type) v (l : list (nat * A)) x, In x (unbind v l) <-> In x l /\ fst x <> v.
Proof.
  intros A v l x. unfold unbind. rewrite filter_In. split; intros [H N]; (split; [exact H|]).
  - intros E. rewrite E, Nat.eqb_refl in N. discriminate.
  - destruct (Nat.eqb_spec (fst x) v); [contradiction|reflexivity].
Qed.
Lemma lookup_unique : forall (A : Type) v (l : list (nat * A)) x, NoDup (map fst l) -> In (v, x) l -> lookup v l = Some x.
Proof.
  intros A v l x. unfold lookup. induction l as [|[w y] l IH]; [contradiction|]. cbn [map find fst]. intros N H.
  apply NoDup_cons_iff in N. destruct N as [N0 N]. destruct (Nat.eqb_spec w v) as [-> | D].
  - destruct H as [H|H]; [injection H as ->; reflexivity|]. exfalso. apply N0. change v with (fst (v, x)). apply in_map. exact H.
  - destruct H as [H|H]; [injection H as -> ->; congruence|]. apply IH; assumption.
Qed.
Lemma NoDup_unbind : forall (A : Type) v (l : list (nat * A)), NoDup (map fst l) -> NoDup (map fst (unbind v l)).
Proof.
  intros A v l. induction l as [|[w y] l IH]; [intros H; exact H|]. cbn [map fst]. intros N. apply NoDup_cons_iff in N. destruct N as [N0 N].
  unfold unbind. cbn [filter fst]. fold (unbind v l). destruct (w =? v); cbn [negb]; [apply IH; exact N|]. cbn [map fst]. constructor; [|apply IH; exact N].
  intros H. apply N0. apply in_map_iff in H. destruct H as (x & <- & H). apply in_unbind in H. apply in_map. apply H.
Qed.
Lemma NoDup_bind : forall (A : Type) v x (l : list (nat * A)), NoDup (map fst l) -> NoDup (map fst (bind v x l)).
Proof.
  intros A v x l N. unfold bind. cbn [map fst]. constructor; [|apply NoDup_unbind; exact N].
  intros H. apply in_map_iff in H. destruct H as (y & E & H). apply in_unbind in H. apply H. exact E.
Qed.

(** ** The relation *)
Definition tr (mid : nat -> nat) (did : nat -> nat -> nat) (x : thing) : value :=
  match x with
  | INone => PyNone
  | IMesh k => PyMesh (mid k)
  | IDomain k j => PyDomain (did k j)
  | IContainer k j es => PyContainer (did k j) es
  end.
Definition trv mid did (V : list (nat * thing)) : environment := map (fun x => (fst x, tr mid did (snd x))) V.

Definition gmesh (G : list mesh_given) (k : nat) : mesh_given := nth k G {| nodes_given := []; tables_given := [] |}.
Definition gtable (G : list mesh_given) (k j : nat) : list (list nat) := snd (nth j (tables_given (gmesh G k)) (EmptyString, [])).
Definition hold (V : list (nat * thing)) (k : nat) : bool :=
  existsb (fun x => match snd x with IMesh k' => k' =? k | _ => false end) V.
Lemma hold_in V k : hold V k = true <-> exists v, In (v, IMesh k) V.
Proof.
  unfold hold. rewrite existsb_exists. split.
  - intros ([v x] & H & E). cbn [snd] in E. destruct x; try discriminate. apply Nat.eqb_eq in E. subst. exists v. exact H.
  - intros (v & H). exists (v, IMesh k). split; [exact H|]. cbn [snd]. apply Nat.eqb_refl.
Qed.

Definition valid (G : list mesh_given) (x : thing) : Prop :=
  match x with
  | INone => True
  | IMesh k => k < length G
  | IDomain k j => k < length G /\ j < length (tables_given (gmesh G k))
  | IContainer k j es => (k < length G /\ j < length (tables_given (gmesh G k))) /\ Forall (fun e => e < length (gtable G k j)) es /\
      Forall (fun row => option_all (nth_error (nodes_given (gmesh G k))) row <> None) (gtable G k j)
  end.

Definition owned (h : heap) (m d : nat) (t : list (list nat)) : Prop :=
  exists n, Forall (fun row => length row = n) t /\
    domains h d = Some {| p_mesh := At m; p_buffer := Some (pred d);
      p_elements := {| data := pred d; rows := length t; cols := n; outer := n; inner := 1 |} |} /\
    buffers h (pred d) = Some (concat t).

Definition listed (did : nat -> nat) (T : list (string * list (list nat))) : list (string * nat) :=
  combine (map fst T) (map did (seq 0 (length T))).

Record objs (alive : nat -> bool) (G : list mesh_given) (h : heap) (mid : nat -> nat) (did : nat -> nat -> nat) : Prop := {
  o_inj : forall k k', k < length G -> k' < length G -> mid k = mid k' -> k = k';
  o_mesh : forall k, k < length G -> mid k < next h;
  o_dom : forall k j, k < length G -> j < length (tables_given (gmesh G k)) -> 0 < did k j < next h;
  o_alive : forall k, k < length G -> alive k = true ->
    meshes h (mid k) = Some {| p_nodes := nodes_given (gmesh G k); p_domains := listed (did k) (tables_given (gmesh G k)) |} /\
    forall j, j < length (tables_given (gmesh G k)) -> owned h (mid k) (did k j) (gtable G k j);
  o_dead : forall k, k < length G -> alive k = false ->
    meshes h (mid k) = None /\ forall j, j < length (tables_given (gmesh G k)) -> domains h (did k j) = None }.

Record sim (b : belief) (h : heap) (e : environment) (mid : nat -> nat) (did : nat -> nat -> nat) : Prop := {
  s_env : e = trv mid did (variables b);
  s_keys : NoDup (map fst (variables b));
  s_valid : forall v x, In (v, x) (variables b) -> valid (given b) x;
  s_objs : objs (hold (variables b)) (given b) h mid did }.

(** ** Destruction of a mesh *)
Lemma delete_all_domains : forall l h d, ~ In d (map snd l) ->
  domains (fold_left (fun h (x : string * nat) => delete_domain h (snd x)) l h) d = domains h d.
Proof.
  induction l as [|x l IH]; intros h d N; [reflexivity|]. cbn [fold_left]. rewrite IH by (intros H; apply N; right; exact H).
  unfold delete_domain. destruct (domains h (snd x)) as [D|]; [|reflexivity]. cbn [domains set_domain].
  rewrite upd_other by (intros E; apply N; left; symmetry; exact E). destruct (p_buffer D); reflexivity.
Qed.
Lemma delete_all_domains_none : forall l h d, In d (map snd l) \/ domains h d = None ->
  domains (fold_left (fun h (x : string * nat) => delete_domain h (snd x)) l h) d = None.
Proof.
  induction l as [|x l IH]; intros h d H; [destruct H as [[]|H]; exact H|]. cbn [fold_left]. apply IH.
  destruct (Nat.eq_dec d (snd x)) as [-> | N].
  - right. unfold delete_domain. destruct (domains h (snd x)) as [D|] eqn:E; [cbn [domains set_domain]; apply upd_same|exact E].
  - destruct H as [[H|H]|H]; [congruence|left; exact H|right]. unfold delete_domain. destruct (domains h (snd x)) as [D|]; [|exact H].
    cbn [domains set_domain]. rewrite upd_other by exact N. destruct (p_buffer D); exact H.
Qed.
Lemma delete_all_buffers_other : forall l h b, (forall x D, In x l -> domains h (snd x) = Some D -> p_buffer D <> Some b) ->
  buffers (fold_left (fun h (x : string * nat) => delete_domain h (snd x)) l h) b = buffers h b.
Proof.
  induction l as [|x l IH]; intros h b H; [reflexivity|]. cbn [fold_left].
  assert (E : forall (y : string * nat) D, domains (delete_domain h (snd x)) (snd y) = Some D -> domains h (snd y) = Some D).
  { intros y D E. unfold delete_domain in E. destruct (domains h (snd x)) as [D'|] eqn:Ex; [|exact E]. cbn [domains set_domain] in E.
    destruct (Nat.eq_dec (snd y) (snd x)) as [Ey | N]; [rewrite Ey, upd_same in E; discriminate|]. rewrite upd_other in E by exact N.
    destruct (p_buffer D'); exact E. }
  rewrite IH.
  - unfold delete_domain. destruct (domains h (snd x)) as [D|] eqn:Ex; [|reflexivity]. cbn [buffers set_domain].
    destruct (p_buffer D) as [b0|] eqn:Eb; [|reflexivity]. cbn [buffers set_buffer]. apply upd_other.
    intros ->. apply (H x D (or_introl eq_refl) Ex). exact Eb.
  - intros y D Hy Ey. apply (H y D (or_intror Hy)). apply E. exact Ey.
Qed.
Lemma delete_all_meshes : forall l h, meshes (fold_left (fun h (x : string * nat) => delete_domain h (snd x)) l h) = meshes h.
Proof.
  induction l as [|x l IH]; intros h; [reflexivity|]. cbn [fold_left]. rewrite IH. unfold delete_domain.
  destruct (domains h (snd x)) as [D|]; [|reflexivity]. cbn [meshes set_domain]. destruct (p_buffer D); reflexivity.
Qed.
Lemma delete_all_next : forall l h, next (fold_left (fun h (x : string * nat) => delete_domain h (snd x)) l h) = next h.
Proof.
  induction l as [|x l IH]; intros h; [reflexivity|]. cbn [fold_left]. rewrite IH. unfold delete_domain.
  destruct (domains h (snd x)) as [D|]; [|reflexivity]. cbn [next set_domain]. destruct (p_buffer D); reflexivity.
Qed.
Lemma snd_listed did T : map snd (listed did T) = map did (seq 0 (length T)).
Proof.
  unfold listed. assert (L : length (map fst T) = length (map did (seq 0 (length T)))) by (rewrite !map_length, seq_length; reflexivity).
  revert L. generalize (map fst T) (map did (seq 0 (length T))). induction l as [|a l IH]; intros [|c m] L; try reflexivity; try discriminate.
  cbn [combine map snd]. f_equal. apply IH. injection L as L. exact L.
Qed.

Lemma destroy_objs alive G h mid did k0 : objs alive G h mid did -> k0 < length G -> alive k0 = true ->
  objs (fun k => alive k && negb (k =? k0)) G (destroy_mesh h (mid k0)) mid did.
Proof.
  intros O K0 A0. destruct (o_alive _ _ _ _ _ O k0 K0 A0) as [HM HD]. unfold destroy_mesh. rewrite HM. cbn [p_domains].
  set (l := listed (did k0) (tables_given (gmesh G k0))).
  assert (IN : forall d, In d (map snd l) <-> exists j, j < length (tables_given (gmesh G k0)) /\ d = did k0 j).
  { intros d. unfold l. rewrite snd_listed, in_map_iff. split.
    - intros (j & <- & H). apply in_seq in H. exists j. split; [lia|reflexivity].
    - intros (j & H & ->). exists j. split; [reflexivity|]. apply in_seq. lia. }
  constructor.
  - exact (o_inj _ _ _ _ _ O).
  - intros k K. cbn [next set_mesh]. rewrite delete_all_next. exact (o_mesh _ _ _ _ _ O k K).
  - intros k j K J. cbn [next set_mesh]. rewrite delete_all_next. exact (o_dom _ _ _ _ _ O k j K J).
  - intros k K A. apply andb_prop in A. destruct A as [A N]. destruct (Nat.eqb_spec k k0) as [-> | N']; [discriminate|]. clear N.
    destruct (o_alive _ _ _ _ _ O k K A) as [HMk HDk].
    cbn [meshes set_mesh domains buffers]. rewrite upd_other by (intros E; apply N'; exact (o_inj _ _ _ _ _ O k k0 K K0 E)).
    rewrite delete_all_meshes. split; [exact HMk|]. intros j J. destruct (HDk j J) as (n & Ht & Hd & Hb). exists n. split; [exact Ht|].
    assert (NI : ~ In (did k j) (map snd l)).
    { intros H. apply IN in H. destruct H as (j' & J' & E). destruct (HD j' J') as (n' & _ & Hd' & _). rewrite <- E, Hd in Hd'.
      injection Hd' as Em _. apply N'. exact (o_inj _ _ _ _ _ O k k0 K K0 Em). }
    cbn [domains buffers set_mesh]. rewrite delete_all_domains by exact NI. split; [exact Hd|]. rewrite delete_all_buffers_other; [exact Hb|].
    intros x D Hx HxD. assert (Hi : In (snd x) (map snd l)) by (apply in_map; exact Hx). apply IN in Hi. destruct Hi as (j' & J' & E).
    destruct (HD j' J') as (n' & _ & Hd' & _). rewrite E, Hd' in HxD. injection HxD as <-. cbn [p_buffer]. intros EE. injection EE as EE.
    pose proof (o_dom _ _ _ _ _ O k0 j' K0 J') as P1. pose proof (o_dom _ _ _ _ _ O k j K J) as P2.
    apply NI. apply IN. exists j'. split; [exact J'|]. lia.
  - intros k K A. cbn [meshes set_mesh domains]. destruct (Nat.eq_dec k k0) as [-> | N].
    + rewrite upd_same. split; [reflexivity|]. intros j J. apply delete_all_domains_none. left. apply IN. exists j. split; [exact J|reflexivity].
    + assert (A' : alive k = false). { destruct (Nat.eqb_spec k k0); [contradiction|]. rewrite andb_true_r in A. exact A. }
      destruct (o_dead _ _ _ _ _ O k K A') as [D1 D2]. rewrite upd_other by (intros E; apply N; exact (o_inj _ _ _ _ _ O k k0 K K0 E)).
      rewrite delete_all_meshes. split; [exact D1|]. intros j J. apply delete_all_domains_none. right. apply D2. exact J.
Qed.

Lemma objs_ext alive alive' G h mid did : (forall k, k < length G -> alive k = alive' k) -> objs alive G h mid did -> objs alive' G h mid did.
Proof.
  intros E O. constructor; [exact (o_inj _ _ _ _ _ O)|exact (o_mesh _ _ _ _ _ O)|exact (o_dom _ _ _ _ _ O)| |].
  - intros k K A. rewrite <- E in A by exact K. exact (o_alive _ _ _ _ _ O k K A).
  - intros k K A. rewrite <- E in A by exact K. exact (o_dead _ _ _ _ _ O k K A).
Qed.

Lemma held_trv mid did G V k : (forall k k', k < length G -> k' < length G -> mid k = mid k' -> k = k') ->
  (forall v x, In (v, x) V -> valid G x) -> k < length G -> mesh_held (mid k) (trv mid did V) = hold V k.
Proof.
  intros I. induction V as [|[v x] V IH]; intros HV K; [reflexivity|]. unfold mesh_held, trv, hold. cbn [map existsb fst snd].
  fold (trv mid did V). fold (mesh_held (mid k) (trv mid did V)). fold (hold V k). rewrite IH; [|intros v' x' H; apply (HV v'); right; exact H|exact K].
  f_equal. unfold refers_to. cbn [snd]. destruct x as [|k'|k' j|k' j es]; try reflexivity. cbn [tr].
  assert (K' : k' < length G) by (apply (HV v (IMesh k')); left; reflexivity).
  destruct (Nat.eqb_spec k' k) as [-> | N]; [apply Nat.eqb_refl|]. apply Nat.eqb_neq. intros E. apply N. apply I; assumption.
Qed.

(** A variable changes: the mesh it held alone goes away. *)
Lemma release_objs alive G h mid did V' old : objs alive G h mid did -> (forall v x, In (v, x) V' -> valid G x) ->
  (forall x, old = Some x -> valid G x) ->
  (forall k, k < length G -> hold V' k = true -> alive k = true) ->
  (forall k, k < length G -> alive k = true -> hold V' k = true \/ old = Some (IMesh k)) ->
  objs (hold V') G (release (option_map (tr mid did) old) h (trv mid did V')) mid did.
Proof.
  intros O HV HO H1 H2. destruct old as [x|].
  - destruct x as [|k0|k0 j|k0 j es]; cbn [option_map tr release];
      try (apply (objs_ext alive); [|exact O]; intros k K; destruct (alive k) eqn:A;
        [destruct (H2 k K A) as [-> |E]; [reflexivity|discriminate]|destruct (hold V' k) eqn:B; [rewrite (H1 k K B) in A; discriminate|reflexivity]]).
    assert (K0 : k0 < length G) by (apply (HO (IMesh k0)); reflexivity).
    rewrite (held_trv mid did G V' k0 (o_inj _ _ _ _ _ O) HV K0). destruct (hold V' k0) eqn:B0.
    + apply (objs_ext alive); [|exact O]. intros k K. destruct (alive k) eqn:A.
      * destruct (H2 k K A) as [-> |E]; [reflexivity|]. injection E as <-. rewrite B0. reflexivity.
      * destruct (hold V' k) eqn:B; [rewrite (H1 k K B) in A; discriminate|reflexivity].
    + destruct (alive k0) eqn:A0.
      * apply (objs_ext (fun k => alive k && negb (k =? k0))); [|apply destroy_objs; assumption].
        intros k K. destruct (Nat.eqb_spec k k0) as [-> | N]; [rewrite B0; apply andb_false_r|]. rewrite andb_true_r.
        destruct (alive k) eqn:A; [destruct (H2 k K A) as [-> |E]; [reflexivity|congruence]|destruct (hold V' k) eqn:B; [rewrite (H1 k K B) in A; discriminate|reflexivity]].
      * assert (D : destroy_mesh h (mid k0) = h) by (unfold destroy_mesh; rewrite (proj1 (o_dead _ _ _ _ _ O k0 K0 A0)); reflexivity).
        rewrite D. apply (objs_ext alive); [|exact O]. intros k K. destruct (alive k) eqn:A.
        -- destruct (H2 k K A) as [-> |E]; [reflexivity|]. congruence.
        -- destruct (hold V' k) eqn:B; [rewrite (H1 k K B) in A; discriminate|reflexivity].
  - cbn [option_map release]. apply (objs_ext alive); [|exact O]. intros k K. destruct (alive k) eqn:A.
    + destruct (H2 k K A) as [-> |E]; [reflexivity|discriminate].
    + destruct (hold V' k) eqn:B; [rewrite (H1 k K B) in A; discriminate|reflexivity].
Qed.

Lemma hold_unbind V v k : NoDup (map fst V) -> hold V k = true -> hold (unbind v V) k = true \/ lookup v V = Some (IMesh k).
Proof.
  intros N H. apply hold_in in H. destruct H as (w & H). destruct (Nat.eq_dec w v) as [-> | D].
  - right. apply lookup_unique; assumption.
  - left. apply hold_in. exists w. apply in_unbind. split; [exact H|exact D].
Qed.
Lemma hold_bind V v x k : hold (bind v x V) k = true <-> x = IMesh k \/ hold (unbind v V) k = true.
Proof.
  rewrite !hold_in. unfold bind. split.
  - intros (w & [E|H]); [injection E as _ ->; left; reflexivity|right; exists w; exact H].
  - intros [-> |(w & H)]; [exists v; left; reflexivity|exists w; right; exact H].
Qed.
Lemma unbind_hold V v k : hold (unbind v V) k = true -> hold V k = true.
Proof. rewrite !hold_in. intros (w & H). exists w. apply in_unbind in H. apply H. Qed.
Lemma hold_trv_lookup mid did V v : lookup v (trv mid did V) = option_map (tr mid did) (lookup v V).
Proof. apply lookup_map. Qed.

(** Assignment of something valid; [alive] tells which meshes exist before it. *)
Lemma assign_sim alive G V h mid did v x : objs alive G h mid did -> NoDup (map fst V) -> (forall v x, In (v, x) V -> valid G x) -> valid G x ->
  (forall k, k < length G -> alive k = true <-> hold V k = true \/ x = IMesh k) ->
  exists h', assign v (tr mid did x) h (trv mid did V) = (h', trv mid did (bind v x V)) /\
    sim {| given := G; variables := bind v x V |} h' (trv mid did (bind v x V)) mid did.
Proof.
  intros O N HV Hx HA. unfold assign.
  assert (E : bind v (tr mid did x) (trv mid did V) = trv mid did (bind v x V)).
  { unfold bind, trv. rewrite unbind_map. reflexivity. }
  rewrite E, hold_trv_lookup. eexists. split; [reflexivity|].
  assert (HV' : forall v0 x0, In (v0, x0) (bind v x V) -> valid G x0).
  { intros v0 x0 [H|H]; [injection H as _ <-; exact Hx|]. apply in_unbind in H. apply (HV v0). apply H. }
  constructor; cbn [given variables]; [reflexivity|apply NoDup_bind; exact N|exact HV'|].
  apply (release_objs alive); [exact O|exact HV'| | |].
  - intros y Hy. apply lookup_in in Hy. apply (HV v). exact Hy.
  - intros k K H. apply HA; [exact K|]. apply hold_bind in H. destruct H as [-> |H]; [right; reflexivity|left; apply unbind_hold in H; exact H].
  - intros k K A. apply HA in A; [|exact K]. destruct A as [A | ->].
    + destruct (hold_unbind V v k N A) as [H|H]; [left; apply hold_bind; right; exact H|right; exact H].
    + left. apply hold_bind. left. reflexivity.
Qed.

Lemma option_all_some : forall (A B : Type) (f g : A -> option B) l, (forall x, In x l -> f x = g x) -> option_all f l = option_all g l.
Proof.
  intros A B f g l H. unfold option_all. induction l as [|x l IH]; [reflexivity|]. cbn [fold_right].
  rewrite H by (left; reflexivity). rewrite IH by (intros y Hy; apply H; right; exact Hy). reflexivity.
Qed.
Lemma option_all_map : forall (A B C : Type) (f : A -> B) (g : B -> option C) l, option_all (fun x => g (f x)) l = option_all g (map f l).
Proof. intros. unfold option_all. induction l as [|x l IH]; [reflexivity|]. cbn [map fold_right]. rewrite IH. reflexivity. Qed.
Lemma option_all_None : forall (A B : Type) (f : A -> option B) l, option_all f l <> None <-> Forall (fun x => f x <> None) l.
Proof.
  intros. unfold option_all. induction l as [|x l IH]; cbn [fold_right].
  - split; [constructor|discriminate].
  - rewrite Forall_cons_iff, <- IH. destruct (f x); [|split; [congruence|intros [H _]; congruence]].
    destruct (fold_right _ _ l); split; intros H; try congruence; try (split; congruence). destruct H; congruence.
Qed.
Lemma option_all_Some : forall (A B : Type) (f : A -> B) l, option_all (fun x => Some (f x)) l = Some (map f l).
Proof. intros. unfold option_all. induction l as [|x l IH]; [reflexivity|]. cbn [fold_right map]. rewrite IH. reflexivity. Qed.

Lemma owned_indices h m d t e : owned h m d t -> element_indices h d e = nth_error t e.
Proof.
  intros (n & Ht & Hd & Hb). destruct (Nat.lt_ge_cases e (length t)) as [L|L].
  - rewrite (element_indices_owned h d (pred d) (At m) n t e Hd Hb Ht L). symmetry. apply nth_error_nth'. exact L.
  - unfold element_indices. rewrite Hd. cbn [p_elements data rows]. rewrite Hb.
    assert (E : (e <? length t) = false) by (apply Nat.ltb_ge; exact L). rewrite E. symmetry. apply nth_error_None. exact L.
Qed.
Lemma owned_nodes h m d t e nodes l : owned h m d t -> meshes h m = Some {| p_nodes := nodes; p_domains := l |} ->
  element_nodes h d e = match nth_error t e with Some row => option_all (nth_error nodes) row | None => None end.
Proof.
  intros O HM. unfold element_nodes. rewrite (owned_indices h m d t e O). destruct O as (n & Ht & Hd & Hb).
  unfold domain_mesh. rewrite Hd. cbn [option_map p_mesh]. rewrite HM. cbn [p_nodes]. destruct (nth_error t e); reflexivity.
Qed.
Lemma dead_indices h d e : domains h d = None -> element_indices h d e = None.
Proof. intros H. unfold element_indices. rewrite H. reflexivity. Qed.
Lemma dead_nodes h d e : domains h d = None -> element_nodes h d e = None.
Proof. intros H. unfold element_nodes, domain_mesh. rewrite H. reflexivity. Qed.

Lemma listed_nth did T j : nth_error (listed did T) j = match nth_error T j with Some x => Some (fst x, did j) | None => None end.
Proof.
  unfold listed. assert (G : forall s, nth_error (combine (map fst T) (map did (seq s (length T)))) j = match nth_error T j with Some x => Some (fst x, did (s + j)) | None => None end).
  { revert j. induction T as [|x T IH]; intros [|j] s; try reflexivity.
    - cbn. rewrite Nat.add_0_r. reflexivity.
    - cbn [map length seq combine nth_error]. rewrite IH. replace (S s + j) with (s + S j) by lia. reflexivity. }
  apply G.
Qed.
Lemma listed_find did T name : find (fun d : string * nat => String.eqb (fst d) name) (listed did T) = option_map (fun j => (fst (nth j T (EmptyString, [])), did j)) (position name T).
Proof.
  unfold listed. assert (G : forall s, find (fun d : string * nat => String.eqb (fst d) name) (combine (map fst T) (map did (seq s (length T)))) =
     option_map (fun j => (fst (nth j T (EmptyString, [])), did (s + j))) (position name T)).
  { induction T as [|x T IH]; intros s; [reflexivity|]. cbn [map length seq combine find fst position]. destruct (String.eqb (fst x) name).
    - cbn [option_map nth]. rewrite Nat.add_0_r. reflexivity.
    - rewrite IH. destruct (position name T) as [j|]; [|reflexivity]. cbn [option_map nth]. replace (S s + j) with (s + S j) by lia. reflexivity. }
  apply G.
Qed.
Lemma position_lt name T j : position name T = Some j -> j < length T.
Proof.
  revert j. induction T as [|x T IH]; intros j; [discriminate|]. cbn [position length]. destruct (String.eqb (fst x) name).
  - intros H. injection H as <-. lia.
  - destruct (position name T) as [i|]; [|discriminate]. cbn. intros H. injection H as <-. specialize (IH i eq_refl). lia.
Qed.
Lemma listed_app did T x : listed did (T ++ [x]) = listed did T ++ [(fst x, did (length T))].
Proof.
  unfold listed. rewrite map_app, app_length. cbn [length map]. rewrite Nat.add_1_r, seq_S, map_app. cbn [map plus].
  assert (L : length (map fst T) = length (map did (seq 0 (length T)))) by (rewrite !map_length, seq_length; reflexivity).
  revert L. generalize (map fst T) (map did (seq 0 (length T))). induction l as [|a l IH]; intros [|c m] L; try reflexivity; try discriminate.
  cbn [combine app]. f_equal. apply IH. injection L as L. exact L.
Qed.
Lemma listed_ext did did' T : (forall j, j < length T -> did j = did' j) -> listed did T = listed did' T.
Proof. intros H. unfold listed. f_equal. apply map_ext_in. intros j Hj. apply in_seq in Hj. apply H. lia. Qed.

(** ** New meshes and new domains *)
Lemma gmesh_app_old G M k : k < length G -> gmesh (G ++ [M]) k = gmesh G k.
Proof. intros K. unfold gmesh. apply app_nth1. exact K. Qed.
Lemma gmesh_app_new G M : gmesh (G ++ [M]) (length G) = M.
Proof. unfold gmesh. rewrite app_nth2 by lia. rewrite Nat.sub_diag. reflexivity. Qed.
Lemma replace_length : forall (A : Type) k (x : A) l, length (replace k x l) = length l.
Proof. intros A k x l. revert k. induction l as [|y l IH]; intros [|k]; try reflexivity. cbn [replace length]. rewrite IH. reflexivity. Qed.
Lemma gmesh_replace_same G M k : k < length G -> gmesh (replace k M G) k = M.
Proof.
  unfold gmesh. revert k. induction G as [|y G IH]; intros [|k] K; cbn [length] in K; try lia; [reflexivity|]. cbn [replace nth]. apply IH. lia.
Qed.
Lemma gmesh_replace_other G M k k' : k' <> k -> gmesh (replace k M G) k' = gmesh G k'.
Proof.
  unfold gmesh. revert k k'. induction G as [|y G IH]; intros [|k] [|k'] N; try reflexivity; try congruence. cbn [replace nth]. apply IH. congruence.
Qed.
Lemma owned_keep h h' m d t : owned h m d t -> 0 < d < next h -> (forall i, i < next h -> domains h' i = domains h i) ->
  (forall i, i < next h -> buffers h' i = buffers h i) -> owned h' m d t.
Proof.
  intros (n & Ht & Hd & Hb) L D B. exists n. split; [exact Ht|]. rewrite D, B by lia. split; assumption.
Qed.

Lemma new_mesh_objs alive G h mid did nodes : objs alive G h mid did ->
  objs (fun k => (k =? length G) || alive k) (G ++ [{| nodes_given := nodes; tables_given := [] |}]) (fst (new_mesh h nodes))
    (upd mid (length G) (next h)) did.
Proof.
  intros O. unfold new_mesh, fresh. cbn [fst].
  assert (L : forall k, k < length (G ++ [{| nodes_given := nodes; tables_given := [] |}]) -> k = length G \/ (k < length G /\ k <> length G)).
  { intros k K. rewrite app_length in K. cbn [length] in K. lia. }
  constructor.
  - intros k k' K K'. apply L in K, K'. destruct K as [-> |[K N]]; destruct K' as [-> |[K' N']]; rewrite ?upd_same, ?upd_other by assumption; intros E.
    + reflexivity.
    + exfalso. pose proof (o_mesh _ _ _ _ _ O k' K'). lia.
    + exfalso. pose proof (o_mesh _ _ _ _ _ O k K). lia.
    + exact (o_inj _ _ _ _ _ O k k' K K' E).
  - intros k K. cbn [next set_mesh]. apply L in K. destruct K as [-> |[K N]]; [rewrite upd_same; lia|]. rewrite upd_other by exact N.
    pose proof (o_mesh _ _ _ _ _ O k K). lia.
  - intros k j K J. cbn [next set_mesh]. apply L in K. destruct K as [-> |[K N]].
    + rewrite gmesh_app_new in J. cbn in J. lia.
    + rewrite gmesh_app_old in J by exact K. pose proof (o_dom _ _ _ _ _ O k j K J). lia.
  - intros k K A. apply L in K. destruct K as [-> |[K N]].
    + rewrite upd_same, gmesh_app_new. cbn [nodes_given tables_given meshes set_mesh]. rewrite upd_same. split; [reflexivity|]. cbn [length]. lia.
    + rewrite upd_other by exact N. rewrite gmesh_app_old by exact K. assert (A' : alive k = true).
      { destruct (Nat.eqb_spec k (length G)); [contradiction|exact A]. }
      destruct (o_alive _ _ _ _ _ O k K A') as [HM HD]. pose proof (o_mesh _ _ _ _ _ O k K) as LM.
      cbn [meshes set_mesh]. rewrite upd_other by lia. split; [exact HM|]. intros j J. unfold gtable. rewrite gmesh_app_old by exact K.
      apply (owned_keep h); [exact (HD j J)|exact (o_dom _ _ _ _ _ O k j K J)| |]; reflexivity.
  - intros k K A. apply L in K. destruct K as [-> |[K N]]; [rewrite Nat.eqb_refl in A; discriminate|].
    rewrite upd_other by exact N. rewrite gmesh_app_old by exact K. assert (A' : alive k = false).
    { destruct (Nat.eqb_spec k (length G)); [contradiction|exact A]. }
    destruct (o_dead _ _ _ _ _ O k K A') as [HM HD]. pose proof (o_mesh _ _ _ _ _ O k K) as LM.
    cbn [meshes set_mesh domains]. rewrite upd_other by lia. split; [exact HM|exact HD].
Qed.

Lemma add_domain_objs alive G h mid did k0 name n t : objs alive G h mid did -> k0 < length G -> alive k0 = true ->
  Forall (fun row => length row = n) t ->
  let M := gmesh G k0 in let d := S (next h) in
  exists h', (let (h1, d1) := new_domain h Null n t in add_domain_ptr h1 (mid k0) d1 name) = Ok h' d /\
    objs alive (replace k0 {| nodes_given := nodes_given M; tables_given := tables_given M ++ [(name, t)] |} G) h' mid
      (upd did k0 (upd (did k0) (length (tables_given M)) d)).
Proof.
  intros O K0 A0 Ht M d. destruct (o_alive _ _ _ _ _ O k0 K0 A0) as [HM HD].
  unfold new_domain, fresh. cbn [next set_buffer set_domain meshes domains buffers]. unfold add_domain_ptr.
  cbn [meshes set_domain set_buffer domains]. rewrite HM, upd_same. cbn [p_mesh p_buffer p_elements].
  eexists. split; [reflexivity|]. unfold push_domain. cbn [p_nodes p_domains].
  match goal with |- objs _ _ ?X _ _ => set (h' := X) end.
  assert (Hm : forall i, i <> mid k0 -> meshes h' i = meshes h i) by (intros i Hi; unfold h'; cbn [meshes set_mesh set_domain set_buffer]; apply upd_other; exact Hi).
  assert (Hd : forall i, i < next h -> domains h' i = domains h i).
  { intros i Hi. unfold h'. cbn [domains set_mesh set_domain set_buffer]. rewrite !upd_other by lia. reflexivity. }
  assert (Hb : forall i, i < next h -> buffers h' i = buffers h i).
  { intros i Hi. unfold h'. cbn [buffers set_mesh set_domain set_buffer]. rewrite !upd_other by lia. reflexivity. }
  assert (Hn : next h' = S (S (next h))) by reflexivity.
  assert (Hm0 : meshes h' (mid k0) = Some {| p_nodes := nodes_given M; p_domains := listed (did k0) (tables_given M) ++ [(name, d)] |}).
  { unfold h'. cbn [meshes set_mesh set_domain set_buffer]. rewrite upd_same. reflexivity. }
  assert (Hd0 : owned h' (mid k0) d t).
  { exists n. split; [exact Ht|]. unfold h', d. cbn [domains buffers set_mesh set_domain set_buffer pred]. rewrite !upd_same. split; reflexivity. }
  clearbody h'.
  assert (LT : forall k j, k < length G -> j < length (tables_given (gmesh (replace k0 {| nodes_given := nodes_given M; tables_given := tables_given M ++ [(name, t)] |} G) k)) ->
     (k = k0 /\ j = length (tables_given M)) \/ (j < length (tables_given (gmesh G k)) /\ upd did k0 (upd (did k0) (length (tables_given M)) d) k j = did k j /\
       gtable (replace k0 {| nodes_given := nodes_given M; tables_given := tables_given M ++ [(name, t)] |} G) k j = gtable G k j)).
  { intros k j K J. destruct (Nat.eq_dec k k0) as [-> | N].
    - rewrite gmesh_replace_same in J by exact K0. cbn [tables_given] in J. rewrite app_length in J. cbn [length] in J.
      destruct (Nat.eq_dec j (length (tables_given M))) as [-> | NJ]; [left; split; reflexivity|right]. fold M. split; [lia|]. split.
      + rewrite upd_same. apply upd_other. exact NJ.
      + unfold gtable. rewrite gmesh_replace_same by exact K0. cbn [tables_given]. rewrite app_nth1 by lia. reflexivity.
    - right. rewrite gmesh_replace_other in J by exact N. split; [exact J|]. split; [rewrite upd_other by exact N; reflexivity|].
      unfold gtable. rewrite gmesh_replace_other by exact N. reflexivity. }
  constructor; rewrite ?replace_length.
  - exact (o_inj _ _ _ _ _ O).
  - intros k K. rewrite Hn. pose proof (o_mesh _ _ _ _ _ O k K). lia.
  - intros k j K J. rewrite Hn. destruct (LT k j K J) as [[-> ->]|(J' & -> & _)].
    + rewrite !upd_same. unfold d. lia.
    + pose proof (o_dom _ _ _ _ _ O k j K J'). lia.
  - intros k K A. destruct (o_alive _ _ _ _ _ O k K A) as [HMk HDk]. split.
    + destruct (Nat.eq_dec k k0) as [-> | N].
      * rewrite Hm0, gmesh_replace_same by exact K0. cbn [nodes_given tables_given]. rewrite listed_app, !upd_same. cbn [fst].
        rewrite (listed_ext (upd (did k0) (length (tables_given M)) d) (did k0)); [reflexivity|]. intros j J. apply upd_other. lia.
      * rewrite Hm by (intros E; apply N; exact (o_inj _ _ _ _ _ O k k0 K K0 E)). rewrite HMk, gmesh_replace_other by exact N.
        rewrite upd_other by exact N. reflexivity.
    + intros j J. destruct (LT k j K J) as [[-> ->]|(J' & -> & ->)].
      * rewrite !upd_same. unfold gtable. rewrite gmesh_replace_same by exact K0. cbn [tables_given]. rewrite app_nth2 by lia. rewrite Nat.sub_diag. exact Hd0.
      * apply (owned_keep h); [exact (HDk j J')|exact (o_dom _ _ _ _ _ O k j K J')|exact Hd|exact Hb].
  - intros k K A. destruct (o_dead _ _ _ _ _ O k K A) as [HMk HDk]. assert (N : k <> k0) by congruence.
    rewrite Hm by (intros E; apply N; exact (o_inj _ _ _ _ _ O k k0 K K0 E)). split; [exact HMk|].
    intros j J. destruct (LT k j K J) as [[-> _]|(J' & -> & _)]; [congruence|]. rewrite Hd by (pose proof (o_dom _ _ _ _ _ O k j K J'); lia). exact (HDk j J').
Qed.

Lemma valid_app G M x : valid G x -> valid (G ++ [M]) x.
Proof.
  destruct x as [|k|k j|k j es]; cbn [valid]; rewrite ?app_length; unfold gtable; [trivial|lia| |].
  - intros [K J]. rewrite gmesh_app_old by exact K. split; [lia|exact J].
  - intros ((K & J) & F1 & F2). rewrite gmesh_app_old by exact K. split; [split; [lia|exact J]|split; assumption].
Qed.
Lemma valid_add G k0 name t x : k0 < length G -> valid G x ->
  valid (replace k0 {| nodes_given := nodes_given (gmesh G k0); tables_given := tables_given (gmesh G k0) ++ [(name, t)] |} G) x.
Proof.
  intros K0. set (M' := {| nodes_given := _; tables_given := _ |}).
  assert (P : forall k j, k < length G /\ j < length (tables_given (gmesh G k)) ->
    (k < length G /\ j < length (tables_given (gmesh (replace k0 M' G) k))) /\ gtable (replace k0 M' G) k j = gtable G k j /\
    nodes_given (gmesh (replace k0 M' G) k) = nodes_given (gmesh G k)).
  { intros k j (K & J). unfold gtable. destruct (Nat.eq_dec k k0) as [-> | N].
    - rewrite gmesh_replace_same by exact K0. unfold M'. cbn [tables_given nodes_given]. rewrite app_length. cbn [length].
      rewrite app_nth1 by exact J. split; [lia|split; reflexivity].
    - rewrite gmesh_replace_other by exact N. split; [split; assumption|split; reflexivity]. }
  destruct x as [|k|k j|k j es]; cbn [valid]; rewrite ?replace_length; [trivial|trivial| |].
  - intros H. apply P. exact H.
  - intros (H & F1 & F2). destruct (P k j H) as (H' & E1 & E2). rewrite E1, E2. split; [exact H'|split; assumption].
Qed.

(** ** One statement *)
Definition guarded (b : belief) (s : statement) : option (belief * answer) := if uses_orphan b s then None else expect b s.

Lemma holds_is_hold b k : holds_mesh b k = hold (variables b) k.
Proof. reflexivity. Qed.

Lemma simple_assign b h e mid did v x : sim b h e mid did -> valid (given b) x -> (forall k, x = IMesh k -> hold (variables b) k = true) ->
  exists h' e', (let (h', e') := assign v (tr mid did x) h e in Some (h', e', Nothing)) = Some (h', e', Nothing) /\ sim (set_variable v x b) h' e' mid did.
Proof.
  intros [E N HV O] Hx HA. rewrite E.
  destruct (assign_sim (hold (variables b)) (given b) (variables b) h mid did v x O N HV Hx) as (h' & EQ & S).
  - intros k K. split; [intros H; left; exact H|]. intros [H|H]; [exact H|exact (HA k H)].
  - rewrite EQ. exists h', (trv mid did (bind v x (variables b))). split; [reflexivity|exact S].
Qed.

Lemma domain_cases b h e mid did k j : sim b h e mid did -> k < length (given b) -> j < length (tables_given (gmesh (given b) k)) ->
  (holds_mesh b k = true /\ owned h (mid k) (did k j) (table_of b k j) /\
     meshes h (mid k) = Some {| p_nodes := nodes_given (mesh_of b k); p_domains := listed (did k) (tables_given (mesh_of b k)) |}) \/
  (holds_mesh b k = false /\ domains h (did k j) = None).
Proof.
  intros [E N HV O] K J. rewrite holds_is_hold. destruct (hold (variables b) k) eqn:H.
  - left. destruct (o_alive _ _ _ _ _ O k K H) as [HM HD]. split; [reflexivity|]. split; [exact (HD j J)|exact HM].
  - right. split; [reflexivity|]. apply (proj2 (o_dead _ _ _ _ _ O k K H)). exact J.
Qed.

Lemma domain_mesh_owned h m d t : owned h m d t -> domain_mesh h d = Some (At m).
Proof. intros (n & _ & Hd & _). unfold domain_mesh. rewrite Hd. reflexivity. Qed.
Lemma number_owned h m d t : owned h m d t -> number_of_elements h d = Some (length t).
Proof. intros (n & _ & Hd & _). unfold number_of_elements. rewrite Hd. reflexivity. Qed.

Lemma trv_ext mid did mid' did' G V : (forall v x, In (v, x) V -> valid G x) -> (forall k, k < length G -> mid' k = mid k) ->
  (forall k j, k < length G -> j < length (tables_given (gmesh G k)) -> did' k j = did k j) -> trv mid' did' V = trv mid did V.
Proof.
  intros HV M D. unfold trv. apply map_ext_in. intros [v x] H. cbn [fst snd]. f_equal. specialize (HV v x H).
  destruct x as [|k|k j|k j es]; cbn [tr valid] in *; [reflexivity|rewrite M by exact HV; reflexivity|rewrite D by apply HV; reflexivity|].
  destruct HV as ((K & J) & _). rewrite D by assumption. reflexivity.
Qed.

Lemma option_all_seq (A B : Type) (g : A -> option B) (t : list A) :
  option_all (fun e => match nth_error t e with Some row => g row | None => None end) (seq 0 (length t)) = option_all g t.
Proof.
  induction t as [|row t IH]; [reflexivity|]. cbn [length seq]. unfold option_all in *. cbn [fold_right nth_error]. rewrite <- IH. rewrite <- seq_shift.
  set (f := fun e => match nth_error (row :: t) e with Some r => g r | None => None end).
  pose proof (option_all_map _ _ _ S f (seq 0 (length t))) as E. unfold option_all, f in E. cbn [nth_error] in E. unfold f in *. rewrite <- E. reflexivity.
Qed.
Lemma elements_nodes h d m t nodes l : owned h m d t -> meshes h m = Some {| p_nodes := nodes; p_domains := l |} ->
  option_all (element_nodes h d) (seq 0 (length t)) = option_all (option_all (nth_error nodes)) t.
Proof.
  intros O HM. rewrite (option_all_some _ _ _ (fun e => match nth_error t e with Some row => option_all (nth_error nodes) row | None => None end))
    by (intros x _; exact (owned_nodes h m d t x nodes l O HM)).
  apply option_all_seq.
Qed.

Lemma step_sim b h e mid did s : sim b h e mid did -> matrix_statement s ->
  match guarded b s with
  | None => step h e s = None
  | Some (b', a) => exists h' e' mid' did', step h e s = Some (h', e', a) /\ sim b' h' e' mid' did'
  end.
Proof.
  intros S MS. assert (LK : forall w, lookup w e = option_map (tr mid did) (lookup w (variables b))) by (intros w; rewrite (s_env _ _ _ _ _ S); apply hold_trv_lookup).
  assert (LV : forall w x, lookup w (variables b) = Some x -> valid (given b) x) by (intros w x H; apply (s_valid _ _ _ _ _ S w); apply lookup_in; exact H).
  assert (LH : forall w k, lookup w (variables b) = Some (IMesh k) -> hold (variables b) k = true) by (intros w k H; apply hold_in; exists w; apply lookup_in; exact H).
  assert (R : exists h' e' mid' did', Some (h, e, Raises) = Some (h', e', Raises) /\ sim b h' e' mid' did') by (exists h, e, mid, did; split; [reflexivity|exact S]).
  assert (SA : forall v x, valid (given b) x -> (forall k, x = IMesh k -> hold (variables b) k = true) ->
    exists h' e' mid' did', (let (h', e') := assign v (tr mid did x) h e in Some (h', e', Nothing)) = Some (h', e', Nothing) /\ sim (set_variable v x b) h' e' mid' did').
  { intros v x Hx HA. destruct (simple_assign b h e mid did v x S Hx HA) as (h' & e' & E & S'). exists h', e', mid, did. split; assumption. }
  destruct s as [v nodes|v w name en n t|v w i|v w name|v w|v w es|v w|v|w|w|w k0|w k0|w]; unfold guarded; cbn [uses_orphan used expect step].
  - (* NewMesh *)
    destruct S as [E N HV O]. pose proof (new_mesh_objs _ _ _ _ _ nodes O) as O'.
    unfold new_mesh, fresh in *. cbn [fst snd] in *. set (G' := given b ++ [{| nodes_given := nodes; tables_given := [] |}]) in *.
    set (mid' := upd mid (length (given b)) (next h)) in *.
    assert (HV' : forall v x, In (v, x) (variables b) -> valid G' x) by (intros v0 x H; apply valid_app; apply (HV v0); exact H).
    destruct (assign_sim _ G' (variables b) _ mid' did v (IMesh (length (given b))) O' N HV') as (h' & EQ & S').
    + cbn [valid]. unfold G'. rewrite app_length. cbn [length]. lia.
    + intros k K. rewrite orb_true_iff, Nat.eqb_eq. split; intros [H|H].
      * right. rewrite H. reflexivity. * left. exact H. * right. exact H. * left. injection H as <-. reflexivity.
    + assert (ET : trv mid' did (variables b) = e).
      { rewrite E. apply (trv_ext mid did mid' did (given b)); [exact HV| |reflexivity]. intros k K. unfold mid'. apply upd_other. lia. }
      rewrite ET in EQ. cbn [tr] in EQ. replace (mid' (length (given b))) with (next h) in EQ by (unfold mid'; rewrite upd_same; reflexivity).
      unfold set_mesh in EQ. cbn [meshes domains buffers next] in EQ. unfold set_mesh. cbn [meshes domains buffers next].
      rewrite EQ. exists h', (trv mid' did (bind v (IMesh (length (given b))) (variables b))), mid', did. split; [reflexivity|exact S'].
  - (* AddDomain *)
    rewrite LK. destruct (lookup w (variables b)) as [x|] eqn:Lw; [|exact R]. destruct x as [|k|k j|k j es]; cbn [option_map tr]; try exact R.
    destruct (n =? en); [|exact R]. pose proof (LV w _ Lw) as K. cbn [valid] in K. pose proof (LH w k Lw) as A.
    destruct S as [E N HV O]. destruct (add_domain_objs _ _ _ _ _ k name n t O K A MS) as (h1 & EQ & O').
    change (mesh_of b k) with (gmesh (given b) k). set (M := gmesh (given b) k) in *.
    set (G' := replace k {| nodes_given := nodes_given M; tables_given := tables_given M ++ [(name, t)] |} (given b)) in *.
    set (did' := upd did k (upd (did k) (length (tables_given M)) (Datatypes.S (next h)))) in *.
    destruct (new_domain h Null n t) as [h0 d0]. rewrite EQ.
    assert (HV' : forall v x, In (v, x) (variables b) -> valid G' x) by (intros v0 x H; apply valid_add; [exact K|apply (HV v0); exact H]).
    destruct (assign_sim _ G' (variables b) h1 mid did' v (IDomain k (length (tables_given M))) O' N HV') as (h' & EQ' & S').
    + cbn [valid]. unfold G'. rewrite replace_length, gmesh_replace_same by exact K. cbn [tables_given]. rewrite app_length. cbn [length]. lia.
    + intros k' K'. split; [intros H; left; exact H|]. intros [H|H]; [exact H|discriminate].
    + assert (ET : trv mid did' (variables b) = e).
      { rewrite E. apply (trv_ext mid did mid did' (given b)); [exact HV|reflexivity|]. intros k' j K' J. unfold did', upd at 1.
        destruct (Nat.eqb_spec k' k) as [-> |_]; [|reflexivity]. apply upd_other. fold M in J. lia. }
      rewrite ET in EQ'. cbn [tr] in EQ'. replace (did' k (length (tables_given M))) with (Datatypes.S (next h)) in EQ' by (unfold did'; rewrite !upd_same; reflexivity).
      rewrite EQ'. exists h', (trv mid did' (bind v (IDomain k (length (tables_given M))) (variables b))), mid, did'. split; [reflexivity|exact S'].
  - (* DomainAt *)
    rewrite LK. destruct (lookup w (variables b)) as [x|] eqn:Lw; [|exact R]. destruct x as [|k|k j|k j es]; cbn [option_map tr]; try exact R.
    pose proof (LV w _ Lw) as K. cbn [valid] in K. pose proof (LH w k Lw) as A.
    destruct (o_alive _ _ _ _ _ (s_objs _ _ _ _ _ S) k K A) as [HM HD]. unfold domain_at. rewrite HM. cbn [p_domains]. rewrite listed_nth.
    change (mesh_of b k) with (gmesh (given b) k). destruct (Nat.ltb_spec i (length (tables_given (gmesh (given b) k)))) as [J|J].
    + destruct (nth_error (tables_given (gmesh (given b) k)) i) as [y|] eqn:Ey; [|apply nth_error_None in Ey; lia]. cbn [option_map snd].
      apply (SA v (IDomain k i)); [split; assumption|discriminate].
    + apply nth_error_None in J. rewrite J. reflexivity.
  - (* DomainNamed *)
    rewrite LK. destruct (lookup w (variables b)) as [x|] eqn:Lw; [|exact R]. destruct x as [|k|k j|k j es]; cbn [option_map tr]; try exact R.
    pose proof (LV w _ Lw) as K. cbn [valid] in K. pose proof (LH w k Lw) as A.
    destruct (o_alive _ _ _ _ _ (s_objs _ _ _ _ _ S) k K A) as [HM HD]. unfold domain_named. rewrite HM. cbn [p_domains]. rewrite listed_find.
    change (mesh_of b k) with (gmesh (given b) k). destruct (position name (tables_given (gmesh (given b) k))) as [j|] eqn:P; cbn [option_map snd].
    + apply position_lt in P. apply (SA v (IDomain k j)); [split; assumption|discriminate].
    + apply (SA v INone); [exact I|discriminate].
  - (* MeshOf *)
    rewrite LK. destruct (lookup w (variables b)) as [x|] eqn:Lw; [|exact R]. destruct x as [|k|k j|k j es]; cbn [option_map tr]; try exact R.
    pose proof (LV w _ Lw) as (K & J). destruct (domain_cases b h e mid did k j S K J) as [(A & OW & HM)|(A & D)]; rewrite A; cbn [negb].
    + rewrite (domain_mesh_owned _ _ _ _ OW), HM. apply (SA v (IMesh k)); [exact K|]. intros k' H. injection H as <-. exact A.
    + unfold domain_mesh. rewrite D. reflexivity.
  - (* Embed *)
    rewrite LK. destruct (lookup w (variables b)) as [x|] eqn:Lw; [|exact R]. destruct x as [|k|k j|k j es']; cbn [option_map tr]; try exact R.
    pose proof (LV w _ Lw) as (K & J). destruct (domain_cases b h e mid did k j S K J) as [(A & OW & HM)|(A & D)]; rewrite A; cbn [negb].
    + rewrite (number_owned _ _ _ _ OW), (elements_nodes _ _ _ _ _ _ OW HM). destruct (length (table_of b k j) =? 0); [exact R|].
      change (node_positions b k) with (option_all (nth_error (nodes_given (mesh_of b k)))).
      destruct (option_all (option_all (nth_error (nodes_given (mesh_of b k)))) (table_of b k j)) as [l|] eqn:EL; [|reflexivity].
      destruct (forallb (fun e0 => e0 <? length (table_of b k j)) es) eqn:EF; [|reflexivity].
      apply (SA v (IContainer k j es)); [|discriminate]. cbn [valid]. split; [split; assumption|]. split.
      * apply Forall_forall. intros y Hy. rewrite forallb_forall in EF. apply Nat.ltb_lt. apply EF. exact Hy.
      * apply option_all_None. intros C. change (gtable (given b) k j) with (table_of b k j) in C. change (gmesh (given b) k) with (mesh_of b k) in C. rewrite EL in C. discriminate.
    + unfold number_of_elements. rewrite D. reflexivity.
  - (* Alias *)
    rewrite LK. destruct (lookup w (variables b)) as [x|] eqn:Lw; [|exact R]. cbn [option_map].
    apply (SA v x); [exact (LV w x Lw)|]. intros k ->. exact (LH w k Lw).
  - (* Del *)
    rewrite LK. destruct (lookup v (variables b)) as [x|] eqn:Lw; [|exact R]. cbn [option_map].
    destruct S as [E N HV O]. unfold delete. rewrite LK, Lw.
    assert (EU : unbind v e = trv mid did (unbind v (variables b))) by (rewrite E; apply unbind_map). rewrite EU.
    assert (HV' : forall v0 x0, In (v0, x0) (unbind v (variables b)) -> valid (given b) x0) by (intros v0 x0 H; apply in_unbind in H; apply (HV v0); apply H).
    eexists. exists (trv mid did (unbind v (variables b))), mid, did. split; [reflexivity|].
    constructor; cbn [given variables]; [reflexivity|apply NoDup_unbind; exact N|exact HV'|].
    apply (release_objs (hold (variables b))); [exact O|exact HV'| | |].
    + intros y Hy. injection Hy as <-. exact (LV v x Lw).
    + intros k K H. apply unbind_hold in H. exact H.
    + intros k K H. destruct (hold_unbind _ v k N H) as [H'|H']; [left; exact H'|right; rewrite Lw in H'; exact H'].
  - (* NumberOfDomains *)
    rewrite LK. destruct (lookup w (variables b)) as [x|] eqn:Lw; [|exact R]. destruct x as [|k|k j|k j es]; cbn [option_map tr]; try exact R.
    pose proof (LV w _ Lw) as K. cbn [valid] in K. pose proof (LH w k Lw) as A.
    destruct (o_alive _ _ _ _ _ (s_objs _ _ _ _ _ S) k K A) as [HM HD]. unfold number_of_domains. rewrite HM. cbn [option_map p_domains].
    exists h, e, mid, did. split; [|exact S]. rewrite <- (map_length snd), snd_listed, map_length, seq_length. reflexivity.
  - (* NumberOfElements *)
    rewrite LK. destruct (lookup w (variables b)) as [x|] eqn:Lw; [|exact R]. destruct x as [|k|k j|k j es]; cbn [option_map tr]; try exact R.
    pose proof (LV w _ Lw) as (K & J). destruct (domain_cases b h e mid did k j S K J) as [(A & OW & HM)|(A & D)]; rewrite A; cbn [negb].
    + rewrite (number_owned _ _ _ _ OW). exists h, e, mid, did. split; [reflexivity|exact S].
    + unfold number_of_elements. rewrite D. reflexivity.
  - (* ElementIndices *)
    rewrite LK. destruct (lookup w (variables b)) as [x|] eqn:Lw; [|exact R]. destruct x as [|k|k j|k j es]; cbn [option_map tr]; try exact R.
    pose proof (LV w _ Lw) as (K & J). destruct (domain_cases b h e mid did k j S K J) as [(A & OW & HM)|(A & D)]; rewrite A; cbn [negb].
    + rewrite (owned_indices _ _ _ _ k0 OW). destruct (nth_error (table_of b k j) k0); [|reflexivity]. exists h, e, mid, did. split; [reflexivity|exact S].
    + rewrite dead_indices by exact D. reflexivity.
  - (* ElementOf *)
    rewrite LK. destruct (lookup w (variables b)) as [x|] eqn:Lw; [|exact R]. destruct x as [|k|k j|k j es]; cbn [option_map tr]; try exact R.
    pose proof (LV w _ Lw) as (K & J). destruct (domain_cases b h e mid did k j S K J) as [(A & OW & HM)|(A & D)]; rewrite A; cbn [negb].
    + rewrite (owned_nodes _ _ _ _ k0 _ _ OW HM). destruct (nth_error (table_of b k j) k0); [|reflexivity].
      change (node_positions b k) with (option_all (nth_error (nodes_given (mesh_of b k)))).
      destruct (option_all (nth_error (nodes_given (mesh_of b k))) l); [|reflexivity]. exists h, e, mid, did. split; [reflexivity|exact S].
    + rewrite dead_nodes by exact D. reflexivity.
  - (* Interpolate *)
    rewrite LK. destruct (lookup w (variables b)) as [x|] eqn:Lw; [|exact R]. destruct x as [|k|k j|k j es]; cbn [option_map tr]; try exact R.
    pose proof (LV w _ Lw) as ((K & J) & F1 & F2). change (gtable (given b) k j) with (table_of b k j) in *. change (gmesh (given b) k) with (mesh_of b k) in F2.
    destruct (domain_cases b h e mid did k j S K J) as [(A & OW & HM)|(A & D)]; rewrite A; cbn [negb].
    + rewrite (domain_mesh_owned _ _ _ _ OW), HM.
      rewrite (option_all_some _ _ _ (fun e0 => Some (nth e0 (table_of b k j) []))).
      2:{ intros y Hy. rewrite (owned_indices _ _ _ _ y OW). apply nth_error_nth'. exact (proj1 (Forall_forall _ _) F1 y Hy). }
      rewrite option_all_Some.
      destruct (option_all (element_nodes h (did k j)) es) eqn:EL; [exists h, e, mid, did; split; [reflexivity|exact S]|].
      exfalso. revert EL. apply option_all_None. apply Forall_forall. intros y Hy. rewrite (owned_nodes _ _ _ _ y _ _ OW HM).
      pose proof (proj1 (Forall_forall _ _) F1 y Hy) as Ly. rewrite (nth_error_nth' _ [] Ly). apply (proj1 (Forall_forall _ _) F2). apply nth_In. exact Ly.
    + unfold domain_mesh. rewrite D. reflexivity.
Qed.

Fixpoint guarded_answers (b : belief) (script : list statement) : option (list answer) :=
  match script with
  | [] => Some []
  | s :: script =>
      match guarded b s with
      | None => None
      | Some (b, a) => match guarded_answers b script with Some l => Some (a :: l) | None => None end
      end
  end.
Lemma run_guarded script : forall b h e mid did, sim b h e mid did -> Forall matrix_statement script -> run_script h e script = guarded_answers b script.
Proof.
  induction script as [|s script IH]; intros b h e mid did S F; [reflexivity|]. apply Forall_cons_iff in F. destruct F as [F0 F].
  cbn [run_script guarded_answers]. pose proof (step_sim b h e mid did s S F0) as H. destruct (guarded b s) as [[b' a]|].
  - destruct H as (h' & e' & mid' & did' & -> & S'). rewrite (IH b' h' e' mid' did' S' F). reflexivity.
  - rewrite H. reflexivity.
Qed.
Lemma start_sim : sim nothing_yet empty_heap [] (fun _ => 0) (fun _ _ => 0).
Proof.
  constructor; [reflexivity|constructor|intros v x []|]. constructor; cbn; intros; lia.
Qed.
