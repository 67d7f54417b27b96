(** C27-C30: meshes and domains. *)

From Coq Require Import String List Arith ZArith Lia Bool.
From Verif Require Import MeshModel MeshSpec MeshProofs.
Import ListNotations.
Open Scope nat_scope.
Open Scope string_scope.

(** C27: after any list of additions and removals that return, the mesh holds exactly the expected list of domains, in
    order, each of them usable; domain(name) is the first one with this name. *)
Theorem C27_history : forall nb_cols fuel h0 nodes calls h, Forall (rectangular_call nb_cols) calls ->
  after nb_cols fuel h0 nodes calls = Some h ->
  let m := the_mesh h0 nodes in let s := expected_after calls in
  number_of_domains h m = Some (length s) /\
  (forall i, match nth_error s i with
             | None => domain_at h m i = None
             | Some (_, t) => exists d, domain_at h m i = Some d /\ usable h m d t
             end) /\
  (forall name, match find (named name) s with
                | None => domain_named h m name = None
                | Some (_, t) => exists d, domain_named h m name = Some d /\ usable h m d t
                end).
Proof. exact history. Qed.
Print Assumptions C27_history.

(** A history that meets the hypotheses: two additions, a rejected one, a removal, one more addition. *)
Definition sample_calls : list call :=
  [AddNew "a" [[0; 1; 2]; [2; 1; 3]]; AddNew "b" [[4; 5; 6]]; AddNew "a" [[7; 8; 9]]; RemoveName "a"; AddPointer "c" [[3; 2; 1]]].
Example C27_history_witness : Forall (rectangular_call 3) sample_calls /\
  after 3 5 empty_heap [[0%Z]] sample_calls <> None /\
  expected_after sample_calls = [("b", [[4; 5; 6]]); ("c", [[3; 2; 1]])].
Proof.
  split; [repeat (apply Forall_cons || apply Forall_nil); unfold rectangular_call; simpl; repeat constructor|].
  split; [vm_compute; discriminate|reflexivity].
Qed.

(** Names are distinct when domains are only created by the mesh, so domain(name) designates one domain. *)
Theorem C27_unique_names : forall calls, (forall c, In c calls -> forall name t, c <> AddPointer name t) ->
  NoDup (map fst (expected_after calls)).
Proof. intros calls H. apply expected_names; [exact H|constructor]. Qed.
Print Assumptions C27_unique_names.
Example C27_unique_names_witness : forall c, In c (firstn 4 sample_calls) -> forall name t, c <> AddPointer name t.
Proof. intros c H name t. repeat (destruct H as [<-|H]; [discriminate|]). contradiction. Qed.

(** Adding under a used name throws and changes nothing at all. *)
Theorem C27_used_name_rejected_partial : forall h m name nb_cols t d, domain_named h m name = Some d ->
  add_domain_new h m name nb_cols t = Throw h.
Proof.
  intros h m name nb_cols t d H. unfold domain_named in H. unfold add_domain_new. destruct (meshes h m) as [M|]; [|discriminate].
  destruct (find (fun x => String.eqb (fst x) name) (p_domains M)) as [x|] eqn:F; [|discriminate].
  apply find_some in F. destruct F as (Hin & Hn).
  assert (E : existsb (fun d => String.eqb (fst d) name) (p_domains M) = true) by (apply existsb_exists; exists x; auto).
  rewrite E. reflexivity.
Qed.
Print Assumptions C27_used_name_rejected_partial.

(** Finding: the overload taking a domain does not look at the names.  Whatever domain already has this name, the call
    is accepted, and domain(name) still designates the first one. *)
Theorem C27_used_name_accepted_refuted : forall nb_cols fuel h0 nodes name t1 t2,
  Forall (fun row => length row = nb_cols) t1 -> Forall (fun row => length row = nb_cols) t2 ->
  exists h, after nb_cols fuel h0 nodes [AddNew name t1; AddPointer name t2] = Some h /\
    number_of_domains h (the_mesh h0 nodes) = Some 2 /\
    (exists d, domain_named h (the_mesh h0 nodes) name = Some d /\ usable h (the_mesh h0 nodes) d t1) /\
    names h (the_mesh h0 nodes) = Some [name; name].
Proof.
  intros nb_cols fuel h0 nodes name t1 t2 H1 H2.
  assert (R : Forall (rectangular_call nb_cols) [AddNew name t1; AddPointer name t2]) by (repeat constructor; assumption).
  pose proof (inv_new_mesh nb_cols h0 nodes) as I0.
  destruct (inv_push nb_cols _ _ [] name t1 (At (the_mesh h0 nodes)) I0 H1 (or_intror eq_refl)) as (h1 & E1 & I1).
  destruct (inv_push nb_cols _ _ _ name t2 Null I1 H2 (or_introl eq_refl)) as (h2 & E2 & I2).
  assert (A : after nb_cols fuel h0 nodes [AddNew name t1; AddPointer name t2] = Some h2).
  { unfold after. cbn [run].
    assert (S1 : run_call nb_cols fuel (the_mesh h0 nodes) (fst (new_mesh h0 nodes)) (AddNew name t1) = Some h1).
    { cbn [run_call]. unfold add_domain_new. destruct I0 as (M & HM & _ & F & _). unfold the_mesh. rewrite HM.
      inversion F as [E|]; subst. simpl existsb. cbv iota.
      fold (the_mesh h0 nodes) in *.
      destruct (new_domain (fst (new_mesh h0 nodes)) (At (the_mesh h0 nodes)) nb_cols t1) as [hh d]. exact E1. }
    rewrite S1.
    assert (S2 : run_call nb_cols fuel (the_mesh h0 nodes) h1 (AddPointer name t2) = Some h2).
    { cbn [run_call]. unfold the_mesh. destruct (new_domain h1 Null nb_cols t2) as [hh d]. exact E2. }
    rewrite S2. reflexivity. }
  exists h2. split; [exact A|].
  destruct (C27_history _ _ _ _ _ _ R A) as (N & _ & Hn).
  assert (X : expected_after [AddNew name t1; AddPointer name t2] = [(name, t1); (name, t2)]) by reflexivity.
  rewrite X in N, Hn. split; [exact N|]. split.
  - specialize (Hn name). simpl find in Hn. unfold named in Hn at 1. cbn [fst] in Hn. rewrite String.eqb_refl in Hn. exact Hn.
  - destruct I2 as (M & HM & _ & F & _). unfold names. unfold the_mesh in *. rewrite HM. simpl. f_equal.
    cbn [expected app] in F. remember (p_domains M) as pd eqn:Epd. clear Epd. inversion F as [|x1 y1 l1 s1 O1 F1]; subst. inversion F1 as [|x2 y2 l2 s2 O2 F2]; subst. inversion F2; subst.
    destruct O1 as (A1 & _). destruct O2 as (A2 & _). simpl in *. congruence.
Qed.
Print Assumptions C27_used_name_accepted_refuted.

(** C28: a removal returns exactly when the mesh is empty or the designated domain is the first one... *)
Theorem C28_returns_iff_first_partial : forall h m M, meshes h m = Some M ->
  (forall name, (exists fuel h' r, remove_domain h m name fuel = Ok h' r) <->
                (p_domains M = [] \/ exists d l, p_domains M = (name, d) :: l)) /\
  (forall d, (exists fuel h' r, remove h m d fuel = Ok h' r) <->
             (p_domains M = [] \/ exists name l, p_domains M = (name, d) :: l)).
Proof.
  intros h m M HM. split.
  - intros name. unfold remove_domain. rewrite (remove_matching_returns h m M _ HM). split.
    + intros [E|([n d] & l & E & Hp)]; [left; exact E|right]. simpl in Hp. apply String.eqb_eq in Hp. subst n. exists d, l. exact E.
    + intros [E|(d & l & E)]; [left; exact E|right]. exists (name, d), l. split; [exact E|]. simpl. apply String.eqb_refl.
  - intros d. unfold remove. rewrite (remove_matching_returns h m M _ HM). split.
    + intros [E|([n d'] & l & E & Hp)]; [left; exact E|right]. simpl in Hp. apply Nat.eqb_eq in Hp. subst d'. exists n, l. exact E.
    + intros [E|(n & l & E)]; [left; exact E|right]. exists (n, d), l. split; [exact E|]. simpl. apply Nat.eqb_refl.
Qed.
Print Assumptions C28_returns_iff_first_partial.

(** ... and then it removes exactly this domain. *)
Theorem C28_removes_exactly_partial : forall h m M name fuel h' r, meshes h m = Some M ->
  remove_domain h m name fuel = Ok h' r ->
  (r = false /\ h' = h /\ p_domains M = []) \/
  (r = true /\ exists d l, p_domains M = (name, d) :: l /\ domains h' d = None /\
     meshes h' m = Some {| p_nodes := p_nodes M; p_domains := l |} /\
     (forall m', m' <> m -> meshes h' m' = meshes h m') /\ (forall d', d' <> d -> domains h' d' = domains h d') /\
     (forall b, (forall D, domains h d = Some D -> p_buffer D <> Some b) -> buffers h' b = buffers h b)).
Proof.
  intros h m M name fuel h' r HM H. destruct (remove_matching_exact h m M _ fuel h' r HM H) as [L|(R & [n d] & l & E & Hp & Rest)].
  - left. exact L.
  - right. split; [exact R|]. simpl in Hp. apply String.eqb_eq in Hp. subst n. exists d, l. split; [exact E|]. exact Rest.
Qed.
Print Assumptions C28_removes_exactly_partial.
Theorem C28_remove_pointer_exactly_partial : forall h m M d fuel h' r, meshes h m = Some M ->
  remove h m d fuel = Ok h' r ->
  (r = false /\ h' = h /\ p_domains M = []) \/
  (r = true /\ exists name l, p_domains M = (name, d) :: l /\ domains h' d = None /\
     meshes h' m = Some {| p_nodes := p_nodes M; p_domains := l |} /\
     (forall m', m' <> m -> meshes h' m' = meshes h m') /\ (forall d', d' <> d -> domains h' d' = domains h d') /\
     (forall b, (forall D, domains h d = Some D -> p_buffer D <> Some b) -> buffers h' b = buffers h b)).
Proof.
  intros h m M d fuel h' r HM H. destruct (remove_matching_exact h m M _ fuel h' r HM H) as [L|(R & [n d'] & l & E & Hp & Rest)].
  - left. exact L.
  - right. split; [exact R|]. simpl in Hp. apply Nat.eqb_eq in Hp. subst d'. exists n, l. split; [exact E|]. exact Rest.
Qed.
Print Assumptions C28_remove_pointer_exactly_partial.

(** Finding: removing any domain but the first, or an unknown name from a mesh that is not empty, never returns. *)
Theorem C28_never_returns_refuted : forall h m M first d0 l, meshes h m = Some M -> p_domains M = (first, d0) :: l ->
  (forall name fuel, name <> first -> remove_domain h m name fuel = Diverges) /\
  (forall d fuel, d <> d0 -> remove h m d fuel = Diverges).
Proof.
  intros h m M first d0 l HM E. split.
  - intros name fuel Hn. apply (remove_matching_stuck h m M _ fuel (first, d0) l HM E). simpl. apply String.eqb_neq. congruence.
  - intros d fuel Hd. apply (remove_matching_stuck h m M _ fuel (first, d0) l HM E). simpl. apply Nat.eqb_neq. congruence.
Qed.
Print Assumptions C28_never_returns_refuted.
(** Two domains; the second one is designated. *)
Definition two_named : heap :=
  match after 3 5 empty_heap [] [AddNew "a" [[0; 1; 2]]; AddNew "b" [[4; 5; 6]]] with Some h => h | None => empty_heap end.
Example C28_witness : names two_named 0 = Some ["a"; "b"] /\
  match remove_domain two_named 0 "a" 1 with Ok h true => names h 0 = Some ["b"] | _ => False end /\
  remove_domain two_named 0 "b" 1000 = Diverges.
Proof. repeat split. Qed.

(** C29, copies: right after the copy, the same names in the same order, the same nodes and the same elements, and the
    source is untouched. *)
Theorem C29_copy_same_content_partial : forall h m, heap_ok h -> (exists M, meshes h m = Some M) -> domains_alive h m ->
  exists h' m', copy_mesh h m = Ok h' m' /\ m' <> m /\ names h' m' = names h m /\ nodes_of h' m' = nodes_of h m /\
    (forall i d, domain_at h m i = Some d -> exists d', domain_at h' m' i = Some d' /\ d' <> d /\
       number_of_elements h' d' = number_of_elements h d /\
       (forall e r, element_indices h d e = Some r -> element_indices h' d' e = Some r)) /\
    names h' m = names h m /\ nodes_of h' m = nodes_of h m /\
    (forall i d, domain_at h m i = Some d -> domain_at h' m i = Some d /\ domains h' d = domains h d).
Proof.
  intros h m OK (M & HM) Hal.
  assert (Hal' : forall x, In x (p_domains M) -> domains h (snd x) <> None).
  { intros x Hx. destruct (In_nth_error _ _ Hx) as (i & Hi). apply (Hal i). unfold domain_at. rewrite HM, Hi. reflexivity. }
  destruct (copy_mesh_spec h m M OK HM Hal') as (h' & m' & l' & E & Hne & OK' & UU & HM' & Hlm & F & Hl').
  assert (UU' := UU). destruct UU' as (L & U).
  assert (Hm : m < next h).
  { destruct (le_lt_dec (next h) m) as [C|C]; [|exact C]. destruct (OK m C) as (C1 & _). congruence. }
  destruct (U m Hm) as (HMm & _). rewrite HM in HMm.
  exists h', m'. split; [exact E|]. split; [exact Hne|].
  unfold names, nodes_of, domain_at. rewrite HM, HM', HMm. cbn [option_map p_domains p_nodes].
  split; [f_equal; clear -F; induction F as [|x y l l' (N & _) F IH]; simpl; congruence|]. split; [reflexivity|].
  split; [|split; [reflexivity|split; [reflexivity|]]].
  - intros i d Hd. destruct (nth_error (p_domains M) i) as [x|] eqn:Ex; [|discriminate]. injection Hd as Hd.
    destruct (Forall2_nth_error _ _ _ _ _ i x F Ex) as (x' & Ex' & C). rewrite Ex'. exists (snd x'). split; [reflexivity|].
    assert (C' := C). destruct C' as (_ & B & D & D' & HD & HD' & _ & P & _).
    assert (d < next h).
    { destruct (le_lt_dec (next h) d) as [X|X]; [|exact X]. destruct (OK d X) as (_ & X1 & _). subst d. congruence. }
    split; [lia|]. split.
    + unfold number_of_elements. subst d. rewrite HD, HD'. simpl. rewrite P. reflexivity.
    + intros e r Hr. subst d. exact (clone_element_indices h h' _ x x' e r OK UU C Hr).
  - intros i d Hd. split; [exact Hd|]. destruct (nth_error (p_domains M) i) as [x|] eqn:Ex; [|discriminate]. injection Hd as Hd.
    apply U. destruct (le_lt_dec (next h) d) as [X|X]; [|exact X]. destruct (OK d X) as (_ & X1 & _).
    exfalso. apply (Hal' x); [apply nth_error_In in Ex; exact Ex|]. subst d. exact X1.
Qed.
Print Assumptions C29_copy_same_content_partial.

(** Finding: no domain of a copy refers to the copy; the pointer is never set. *)
Theorem C29_copy_mesh_pointer_refuted : forall h m, heap_ok h -> (exists M, meshes h m = Some M) -> domains_alive h m ->
  exists h' m', copy_mesh h m = Ok h' m' /\
    forall i d', domain_at h' m' i = Some d' -> domain_mesh h' d' = Some Indeterminate.
Proof.
  intros h m OK (M & HM) Hal.
  assert (Hal' : forall x, In x (p_domains M) -> domains h (snd x) <> None).
  { intros x Hx. destruct (In_nth_error _ _ Hx) as (i & Hi). apply (Hal i). unfold domain_at. rewrite HM, Hi. reflexivity. }
  destruct (copy_mesh_spec h m M OK HM Hal') as (h' & m' & l' & E & Hne & OK' & UU & HM' & Hlm & F & Hl').
  exists h', m'. split; [exact E|]. intros i d' Hd. unfold domain_at in Hd. rewrite HM' in Hd. cbn [p_domains] in Hd.
  destruct (nth_error l' i) as [x'|] eqn:Ex; [|discriminate]. injection Hd as Hd.
  assert (G : exists x, is_clone h h' (next h) x x').
  { clear -F Ex. revert i Ex. induction F as [|x y l l' C F IH]; intros [|i] Ex; try discriminate.
    - injection Ex as <-. exists x. exact C.
    - exact (IH i Ex). }
  destruct G as (x & _ & _ & D & D' & _ & HD' & P & _). subst d'. unfold domain_mesh. rewrite HD'. simpl. rewrite P. reflexivity.
Qed.
Print Assumptions C29_copy_mesh_pointer_refuted.

(** Finding: the elements of a copied domain are read in the array owned by the source; they are gone with it. *)
Theorem C29_copy_dangles_refuted : forall h m i d e, heap_ok h -> (exists M, meshes h m = Some M) -> domains_alive h m ->
  domain_at h m i = Some d -> owns_its_table h d ->
  exists h' m', copy_mesh h m = Ok h' m' /\ exists d', domain_at h' m' i = Some d' /\
    domain_at (destroy_mesh h' m) m' i = Some d' /\ element_indices (destroy_mesh h' m) d' e = None.
Proof.
  intros h m i d e OK (M & HM) Hal Hd (D & b & HD & HB & Hdata).
  apply (copy_dangles h m M i d D b e); try assumption.
  intros x Hx. destruct (In_nth_error _ _ Hx) as (j & Hj). apply (Hal j). unfold domain_at. rewrite HM, Hj. reflexivity.
Qed.
Print Assumptions C29_copy_dangles_refuted.

(** C29, moves: the new mesh holds the nodes and the very domains of the source, which keep their elements, also after
    the source is destroyed. *)
Theorem C29_move_same_content_partial : forall h m, heap_ok h -> (exists M, meshes h m = Some M) ->
  exists h' m', move_mesh h m = Ok h' m' /\ m' <> m /\ number_of_domains h' m = Some 0 /\
    forall h'', h'' = h' \/ h'' = destroy_mesh h' m ->
      names h'' m' = names h m /\ nodes_of h'' m' = nodes_of h m /\
      (forall i, domain_at h'' m' i = domain_at h m i) /\
      (forall d e, number_of_elements h'' d = number_of_elements h d /\ element_indices h'' d e = element_indices h d e).
Proof.
  intros h m OK (M & HM). destruct (move_mesh_spec h m M OK HM) as (h' & m' & E & Hne & H1 & H2 & H3 & H4 & H5).
  exists h', m'. split; [exact E|]. split; [exact Hne|]. split; [unfold number_of_domains; rewrite H2; reflexivity|].
  intros h'' [-> | ->].
  - unfold names, nodes_of, domain_at, number_of_elements, element_indices. rewrite HM, H1, H4, H5. repeat split.
  - rewrite (destroy_empty h' m H2). unfold names, nodes_of, domain_at, number_of_elements, element_indices.
    cbn [meshes domains buffers set_mesh]. rewrite upd_other by exact Hne. rewrite HM, H1, H4, H5. repeat split.
Qed.
Print Assumptions C29_move_same_content_partial.

(** Finding: the domains of a moved mesh still refer to the source. *)
Theorem C29_move_mesh_pointer_refuted : forall h m, heap_ok h -> (exists M, meshes h m = Some M) ->
  exists h' m', move_mesh h m = Ok h' m' /\ m' <> m /\
    forall i d, domain_at h m i = Some d -> domain_mesh h d = Some (At m) ->
      domain_at h' m' i = Some d /\ domain_mesh h' d = Some (At m) /\
      (forall e, element_nodes (destroy_mesh h' m) d e = None) .
Proof.
  intros h m OK (M & HM). destruct (move_mesh_spec h m M OK HM) as (h' & m' & E & Hne & H1 & H2 & H3 & H4 & H5).
  exists h', m'. split; [exact E|]. split; [exact Hne|]. intros i d Hd Hp. unfold domain_at in *. rewrite HM in Hd.
  rewrite H1. split; [exact Hd|]. unfold domain_mesh in *. rewrite H4. split; [exact Hp|]. intros e.
  rewrite (destroy_empty h' m H2). unfold element_nodes, domain_mesh. cbn [domains meshes set_mesh]. rewrite H4, Hp.
  rewrite upd_same. destruct (element_indices _ d e); reflexivity.
Qed.
Print Assumptions C29_move_mesh_pointer_refuted.

(** Hypotheses of the C29 theorems: a mesh with two domains made by the ordinary calls. *)
Definition two_domains : heap :=
  match after 3 5 empty_heap [[0%Z]; [1%Z]; [2%Z]; [3%Z]] [AddNew "a" [[0; 1; 2]; [2; 1; 3]]; AddNew "b" [[3; 2; 0]]] with
  | Some h => h | None => empty_heap end.
Example C29_witness : heap_ok two_domains /\ (exists M, meshes two_domains 0 = Some M) /\ domains_alive two_domains 0 /\
  domain_at two_domains 0 1 = Some 4 /\ owns_its_table two_domains 4 /\ domain_mesh two_domains 4 = Some (At 0) /\
  element_indices two_domains 4 0 = Some [3; 2; 0] /\
  element_nodes two_domains 4 0 = Some [[3%Z]; [2%Z]; [0%Z]].
Proof.
  split; [|split; [eexists; reflexivity|split; [|split; [reflexivity|split; [|repeat split]]]]].
  - intros i Hi. change (next two_domains) with 5 in Hi. do 5 (destruct i as [|i]; [lia|]). repeat split.
  - intros [|[|i]] d Hd.
    + injection Hd as <-. discriminate.
    + injection Hd as <-. discriminate.
    + cbn in Hd. destruct i; discriminate.
  - exists {| p_mesh := At 0; p_buffer := Some 3; p_elements := {| data := 3; rows := 1; cols := 3; outer := 3; inner := 1 |} |}, 3.
    repeat split.
Qed.

(** C30: a domain made from a table returns its rows, whatever is done to any other array afterwards. *)
Theorem C30_copied_table : forall h mesh nb_cols t e b v, Forall (fun row => length row = nb_cols) t -> e < length t ->
  let '(h', d) := new_domain h mesh nb_cols t in
  number_of_elements h' d = Some (length t) /\ element_indices h' d e = Some (nth e t []) /\
  ((exists B, buffers h b = Some B) -> heap_ok h -> element_indices (set_buffer h' b v) d e = Some (nth e t [])).
Proof.
  intros h mesh nb_cols t e b v Ht He. unfold new_domain, fresh. cbn [set_buffer next].
  split; [unfold number_of_elements; cbn [domains set_domain]; rewrite upd_same; reflexivity|]. split.
  - eapply element_indices_owned; try eassumption.
    + cbn [domains set_domain]. apply upd_same.
    + cbn [buffers set_domain]. apply upd_same.
  - intros (B & HB) OK. assert (b <> next h) by (intros ->; destruct (OK (next h) (Nat.le_refl _)) as (_ & _ & C); congruence).
    eapply element_indices_owned; try eassumption.
    + cbn [domains set_domain set_buffer]. apply upd_same.
    + cbn [buffers set_domain set_buffer]. rewrite upd_other by congruence. apply upd_same.
Qed.
Print Assumptions C30_copied_table.

(** ... a domain over an external array returns what is in the array at the offsets given by the strides, ... *)
Theorem C30_external_strides : forall h mesh b buffer t nb_cols outer_stride inner_stride e,
  buffers h b = Some buffer -> Forall (fun row => length row = nb_cols) t -> e < length t ->
  (forall i k, i < length t -> k < nb_cols ->
     nth_error buffer (i * outer_stride + k * inner_stride) = Some (nth k (nth i t []) 0)) ->
  let '(h', d) := new_domain_external h mesh b (length t) nb_cols outer_stride inner_stride in
  number_of_elements h' d = Some (length t) /\ element_indices h' d e = Some (nth e t []).
Proof.
  intros h mesh b buffer t nb_cols o i e HB Ht He Hv. unfold new_domain_external, fresh.
  split; [unfold number_of_elements; cbn [domains set_domain]; rewrite upd_same; reflexivity|].
  rewrite (element_indices_strided _ _ {| p_mesh := mesh; p_buffer := None;
      p_elements := {| data := b; rows := length t; cols := nb_cols; outer := o; inner := i |} |} e buffer
      (fun k => nth k (nth e t []) 0)).
  - f_equal. cbn [p_elements cols]. apply map_nth_seq_nat. apply row_length; assumption.
  - cbn [domains set_domain]. apply upd_same.
  - exact HB.
  - exact He.
  - cbn [p_elements cols outer inner]. intros k Hk. apply Hv; assumption.
Qed.
Print Assumptions C30_external_strides.

(** ... in particular for row-major arrays (the strides passed by the two short constructors), ... *)
Theorem C30_external_row_major : forall h mesh b t nb_cols e,
  buffers h b = Some (concat t) -> Forall (fun row => length row = nb_cols) t -> e < length t ->
  let '(h', d) := new_domain_external h mesh b (length t) nb_cols nb_cols 1 in
  element_indices h' d e = Some (nth e t []).
Proof.
  intros h mesh b t nb_cols e HB Ht He.
  refine (proj2 (C30_external_strides h mesh b (concat t) t nb_cols nb_cols 1 e HB Ht He _)).
  intros i k Hi Hk. rewrite Nat.mul_1_r. rewrite (nth_error_concat nat nb_cols t i k Ht Hi Hk). apply nth_error_nth'. rewrite (row_length t nb_cols i Ht Hi). exact Hk.
Qed.
Print Assumptions C30_external_row_major.

(** ... for column-major arrays (column k after column k-1), ... *)
Definition column (t : table) (k : nat) : list nat := map (fun row => nth k row 0) t.
Theorem C30_external_column_major : forall h mesh b t nb_cols e,
  buffers h b = Some (concat (map (column t) (seq 0 nb_cols))) -> Forall (fun row => length row = nb_cols) t -> e < length t ->
  let '(h', d) := new_domain_external h mesh b (length t) nb_cols 1 (length t) in
  element_indices h' d e = Some (nth e t []).
Proof.
  intros h mesh b t nb_cols e HB Ht He.
  refine (proj2 (C30_external_strides h mesh b _ t nb_cols 1 (length t) e HB Ht He _)).
  intros i k Hi Hk. rewrite Nat.mul_1_r, Nat.add_comm.
  rewrite (nth_error_concat _ (length t)); [| |rewrite map_length, seq_length; exact Hk|exact Hi].
  - rewrite (nth_indep _ [] (column t 0)) by (rewrite map_length, seq_length; exact Hk).
    rewrite map_nth, seq_nth by exact Hk. unfold column. simpl.
    rewrite (nth_error_nth' _ 0) by (rewrite map_length; exact Hi).
    rewrite (nth_indep _ 0 (nth k [] 0)) by (rewrite map_length; exact Hi). rewrite (map_nth (fun row => nth k row 0)). reflexivity.
  - apply Forall_forall. intros c Hc. apply in_map_iff in Hc. destruct Hc as (k' & <- & _). unfold column. apply map_length.
Qed.
Print Assumptions C30_external_column_major.

(** ... and it follows the changes made to the array. *)
Theorem C30_external_is_a_view : forall h mesh b (t t' : table) nb_cols e, length t' = length t ->
  Forall (fun row => length row = nb_cols) t' -> e < length t' ->
  let '(h', d) := new_domain_external h mesh b (length t) nb_cols nb_cols 1 in
  element_indices (set_buffer h' b (Some (concat t'))) d e = Some (nth e t' []).
Proof.
  intros h mesh b t t' nb_cols e HL Ht He. rewrite <- HL.
  apply (C30_external_row_major (set_buffer h b (Some (concat t'))) mesh b t' nb_cols e); try assumption.
  cbn [buffers set_buffer]. apply upd_same.
Qed.
Print Assumptions C30_external_is_a_view.

Example C30_witness : let t := [[0; 1; 2]; [2; 1; 3]] in
  Forall (fun row => length row = 3) t /\ concat (map (column t) (seq 0 3)) = [0; 2; 1; 1; 2; 3].
Proof. split; [repeat constructor|reflexivity]. Qed.
