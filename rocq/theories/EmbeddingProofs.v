(** Proofs for C99. *)

From Coq Require Import String Ascii List Arith Bool Lia.
From Verif Require Import SetupModel SetupProperties EmbeddingModel EmbeddingSpec.
Import ListNotations.
Open Scope nat_scope.

Lemma as_topology_spec e o id : as_topology e o = Some id <-> topology o = Some (e, id).
Proof.
  unfold as_topology. destruct (topology o) as [[e' i]|]; [|split; discriminate].
  destruct (element_type_eqb e e') eqn:E.
  - apply element_type_eqb_spec in E. subst e'. split; intros H; injection H; intros; subst; reflexivity.
  - split; [discriminate|]. intros H. injection H as -> ->. rewrite (proj2 (element_type_eqb_spec e e) eq_refl) in E. discriminate.
Qed.
Lemma first_some_spec (A B : Type) (f : A -> option B) l b : first_some f l = Some b ->
  exists before a after, l = before ++ a :: after /\ f a = Some b /\ forall x, In x before -> f x = None.
Proof.
  induction l as [|a l IH]; [discriminate|]. cbn. destruct (f a) as [b'|] eqn:E.
  - intros [= ->]. exists [], a, l. split; [reflexivity|]. split; [exact E|]. intros x [].
  - intros H. destruct (IH H) as (be & x & af & -> & F & N). exists (a :: be), x, af. split; [reflexivity|]. split; [exact F|].
    intros y [<-|Hy]; [exact E|exact (N y Hy)].
Qed.
Lemma first_some_none (A B : Type) (f : A -> option B) l : first_some f l = None <-> forall x, In x l -> f x = None.
Proof.
  induction l as [|a l IH]; cbn; [split; [intros _ x []|reflexivity]|]. destruct (f a) eqn:E.
  - split; [discriminate|]. intros H. specialize (H a (or_introl eq_refl)). congruence.
  - rewrite IH. split; [intros H x [<-|Hx]; [exact E|exact (H x Hx)]|intros H x Hx; apply H; right; exact Hx].
Qed.
Lemma first_some_app (A B : Type) (f : A -> option B) l m : first_some f (l ++ m) = match first_some f l with Some b => Some b | None => first_some f m end.
Proof. induction l as [|a l IH]; cbn; [reflexivity|]. destruct (f a); [reflexivity|exact IH]. Qed.

Lemma get_none e c : get e c = None <-> ~ reachable e c.
Proof.
  unfold get. rewrite first_some_none. split.
  - intros H (t & id & Ht & o & Ho & E). apply as_topology_spec in E. rewrite (H o) in E; [discriminate|]. apply in_flat_map. exists t. split; assumption.
  - intros N o Ho. apply in_flat_map in Ho. destruct Ho as (t & Ht & Ho). destruct (as_topology e o) as [id|] eqn:E; [|reflexivity]. exfalso. apply N.
    exists t, id. split; [exact Ht|]. exists o. split; [exact Ho|]. apply as_topology_spec, E.
Qed.
Lemma get_nearest e c id : get e c = Some id -> nearest e c id.
Proof.
  unfold get. induction c as [|t c IH]; [discriminate|]. cbn [flat_map]. rewrite first_some_app. destruct (first_some (as_topology e) (objects t)) as [i|] eqn:E.
  - intros [= <-]. destruct (first_some_spec _ _ _ _ _ E) as (be & o & af & El & F & _). exists [], t, c. split; [reflexivity|]. split.
    + exists o. split; [rewrite El; apply in_or_app; right; left; reflexivity|apply as_topology_spec, F].
    + intros (t' & i' & [] & _).
  - intros H. destruct (IH H) as (near & u & far & -> & Hu & N). exists (t :: near), u, far. split; [reflexivity|]. split; [exact Hu|].
    intros (t' & i' & [<-|Ht'] & Hh); [|apply N; exists t', i'; split; assumption].
    destruct Hh as (o & Ho & Et). apply as_topology_spec in Et. rewrite first_some_none in E. rewrite (E o Ho) in Et. discriminate.
Qed.
Lemma nearest_reachable e c id : nearest e c id -> reachable e c.
Proof. intros (near & t & far & -> & H & _). exists t, id. split; [apply in_or_app; right; left; reflexivity|exact H]. Qed.

Lemma search_none e c : search e c = None <-> ~ reachable e c.
Proof.
  unfold search. destruct c as [|t [|u up]].
  - split; [intros _ (t & id & [] & _)|reflexivity].
  - apply get_none.
  - destruct (get e (u :: up)) as [id|] eqn:G; [|apply get_none]. split; [discriminate|]. intros N. exfalso. apply N.
    destruct (nearest_reachable _ _ _ (get_nearest _ _ _ G)) as (t' & i' & Ht & Hh). exists t', i'. split; [right; exact Ht|exact Hh].
Qed.
Lemma search_some e c id : search e c = Some id -> nearest e (tl c) id \/ (~ reachable e (tl c) /\ nearest e c id).
Proof.
  unfold search. destruct c as [|t [|u up]]; [discriminate| |].
  - intros G. right. split; [intros (t' & i' & [] & _)|exact (get_nearest _ _ _ G)].
  - destruct (get e (u :: up)) as [i|] eqn:G.
    + intros [= <-]. left. exact (get_nearest _ _ _ G).
    + intros H. right. split; [apply get_none, G|exact (get_nearest _ _ _ H)].
Qed.

(** ** Paths *)
Lemma split_plain n : (forall k, String.get k n <> Some "/"%char) -> split n = [n].
Proof.
  induction n as [|a n IH]; intros H; [reflexivity|]. cbn [split]. destruct (Ascii.eqb_spec a "/") as [->|N]; [exfalso; exact (H 0 eq_refl)|].
  rewrite IH; [reflexivity|]. intros k. exact (H (S k)).
Qed.
Lemma split_slash n s : (forall k, String.get k n <> Some "/"%char) -> split (n ++ "/" ++ s) = n :: split s.
Proof.
  induction n as [|a n IH]; intros H; [reflexivity|]. cbn [append split]. destruct (Ascii.eqb_spec a "/") as [->|N]; [exfalso; exact (H 0 eq_refl)|].
  cbn [append] in IH. rewrite IH; [reflexivity|]. intros k. exact (H (S k)).
Qed.
Lemma split_join path : path <> [] -> Forall plain path -> split (join path) = path.
Proof.
  induction path as [|n path IH]; [congruence|]. intros _ F. apply Forall_cons_iff in F. destruct F as [(_ & _ & _ & P) F].
  destruct path as [|m path]; [exact (split_plain n P)|]. change (join (n :: m :: path)) with (n ++ "/" ++ join (m :: path))%string.
  rewrite (split_slash n _ P). f_equal. apply IH; [discriminate|exact F].
Qed.
Lemma find_name o l : NoDup (map name l) -> In o l -> find (fun x => String.eqb (name x) (name o)) l = Some o.
Proof.
  induction l as [|x l IH]; [intros _ []|]. intros N [->|H]; cbn.
  - rewrite String.eqb_refl. reflexivity.
  - cbn in N. apply NoDup_cons_iff in N. destruct N as [Nx N]. destruct (String.eqb_spec (name x) (name o)) as [E|_]; [|exact (IH N H)].
    exfalso. apply Nx. rewrite E. apply in_map, H.
Qed.
Lemma find_label u l : NoDup (map label l) -> In u l -> find (fun x => String.eqb (label x) (label u)) l = Some u.
Proof.
  induction l as [|x l IH]; [intros _ []|]. intros N [->|H]; cbn.
  - rewrite String.eqb_refl. reflexivity.
  - cbn in N. apply NoDup_cons_iff in N. destruct N as [Nx N]. destruct (String.eqb_spec (label x) (label u)) as [E|_]; [|exact (IH N H)].
    exfalso. apply Nx. rewrite E. apply in_map, H.
Qed.
Lemma placed_nonempty t path o : placed_at t path o -> path <> [].
Proof. intros H. inversion H; discriminate. Qed.
Lemma resolve_cons n path c : path <> [] -> resolve c (n :: path) =
    if String.eqb n "." then resolve c path
    else if String.eqb n ".." then match c with _ :: ((_ :: _) as up) => resolve up path | _ => None end
    else match c with
         | [] => None
         | t :: _ => match find (fun t => String.eqb (label t) n) (children t) with Some t => resolve (t :: c) path | None => None end
         end.
Proof. destruct path; [congruence|reflexivity]. Qed.
Lemma resolve_placed path : Forall plain path -> path <> [] -> forall t c o, unique_names t -> (resolve (t :: c) path = Some o <-> placed_at t path o).
Proof.
  induction path as [|n path IH]; [congruence|]. intros F _ t c o U. apply Forall_cons_iff in F. destruct F as [(P0 & P1 & P2 & _) F].
  destruct (U t (In_scene_root t)) as [N1 N2].
  destruct path as [|m path].
  - cbn [resolve]. split.
    + intros H. apply find_some in H. destruct H as [H E]. apply String.eqb_eq in E. rewrite <- E. apply Placed_here, H.
    + intros H. inversion H as [t' o' Ho|t' u path' o' Hu Hp]; subst; [exact (find_name o _ N1 Ho)|]. exfalso. exact (placed_nonempty _ _ _ Hp eq_refl).
  - rewrite resolve_cons by discriminate.
    destruct (String.eqb_spec n ".") as [->|_]; [congruence|]. destruct (String.eqb_spec n "..") as [->|_]; [congruence|]. split.
    + destruct (find _ (children t)) as [u|] eqn:Ef; [|discriminate]. apply find_some in Ef. destruct Ef as [Hu E]. apply String.eqb_eq in E. subst n. intros H.
      apply Placed_below; [exact Hu|]. apply (IH F ltac:(discriminate) u (t :: c) o); [|exact H].
      intros v Hv. apply U. clear - Hu Hv. induction Hv as [|v w Hv IHv Hw]; [exact (In_scene_child _ _ _ (In_scene_root t) Hu)|exact (In_scene_child _ _ _ IHv Hw)].
    + intros H. inversion H as [t' o' Ho|t' u path' o' Hu Hp]; subst. rewrite (find_label u _ N2 Hu). apply (IH F ltac:(discriminate) u (t :: c) o); [|exact Hp].
      intros v Hv. apply U. clear - Hu Hv. induction Hv as [|v w Hv IHv Hw]; [exact (In_scene_child _ _ _ (In_scene_root t) Hu)|exact (In_scene_child _ _ _ IHv Hw)].
Qed.
Lemma context_root scene c : context_in scene c -> root c = [scene].
Proof.
  intros H. unfold root. assert (exists l, rev c = scene :: l) as [l ->]; [|reflexivity].
  induction H as [|t u c H [l IH] Ht]; [exists []; reflexivity|]. exists (l ++ [t]). change (rev (t :: u :: c)) with (rev (u :: c) ++ [t]). rewrite IH. reflexivity.
Qed.
Lemma root_root c : root (root c) = root c.
Proof. unfold root. destruct (rev c) as [|t l]; reflexivity. Qed.
Lemma absolute_path c scene path o : context_in scene c -> unique_names scene -> path <> [] -> Forall plain path ->
  (find_path c (String "/" (join path)) = Some o <-> placed_at scene path o).
Proof. intros C U N F. unfold find_path. rewrite (split_join path N F), (context_root scene c C). exact (resolve_placed path F N scene [] o U). Qed.
Lemma root_context scene : context_in scene [scene].
Proof. constructor. Qed.

(** ** canCreate *)
Lemma deduced e c states q : canCreate e c states (Description "" q) =
  if String.eqb q "" then match search e c with Some _ => states | None => false end
  else match find_path (root c) (substr1 q) with Some o => match as_topology e o with Some _ => states | None => false end | None => false end.
Proof.
  unfold canCreate. cbn [template topology_attribute lower_string].
  destruct (String.eqb_spec "" (lower_string (templateName e))) as [E|_]; [exfalso; apply (name_not_empty e); symmetry; exact E|].
  cbn [String.eqb negb]. destruct (String.eqb q ""); reflexivity.
Qed.
Lemma create_some order c states arg e : create order c states arg = Some e -> In e order /\ canCreate e c states arg = true.
Proof. intros H. apply find_some in H. exact H. Qed.
Lemma create_unique order c states arg e : In e order -> canCreate e c states arg = true -> (forall e', canCreate e' c states arg = true -> e' = e) -> create order c states arg = Some e.
Proof.
  intros Hin H U. unfold create. destruct (find _ order) as [e'|] eqn:F.
  - apply find_some in F. destruct F as [_ F]. rewrite (U e' F). reflexivity.
  - exfalso. pose proof (find_none _ _ F e Hin) as X. cbv beta in X. congruence.
Qed.

Lemma find_plain c n : plain n -> find_path c n = resolve c [n].
Proof.
  intros (P0 & _ & _ & P). destruct n as [|a n]; [congruence|]. pose proof (split_plain _ P) as S. pose proof (P 0) as Q. cbn in Q. clear P0 P. unfold find_path.
  destruct a as [[] [] [] [] [] [] [] []]; try (rewrite S; reflexivity). exfalso. apply Q. reflexivity.
Qed.
Lemma up_from_root c n : find_path (root c) ("../" ++ n) = None.
Proof.
  change (find_path (root c) ("../" ++ n)) with (resolve (root c) (".."%string :: split n)). assert (N : split n <> []).
  { destruct n as [|a n]; cbn; [discriminate|]. destruct (Ascii.eqb a "/"); [discriminate|]. destruct (split n); discriminate. }
  rewrite (resolve_cons _ _ _ N). cbn [String.eqb]. unfold root. destruct (rev c); reflexivity.
Qed.
