(** Lemmas on the grids used from Python: edges and faces, indices out of range, and the calls that are answered. *)

From Coq Require Import String ZArith Reals Lra Lia List Arith Bool.
From Flocq Require Import Core.Raux.
From Verif Require Import GridModel GridSpec GridGeoModel GridGeoSpec GridMachModel GridMachProofs GridMachProperties GridProofs GridGeoProofs
  HashGridModel PyGridModel PyGridSpec PyGridProofs.
Import ListNotations.
Open Scope nat_scope.

(** ** Edges and faces *)
Lemma enumerates_transport : forall (A B A' B' : Type) n (enum : Z -> B) (enc : A -> B) (Item : A -> Prop)
  (enum' : Z -> B') (enc' : A' -> B') (Item' : A' -> Prop) (f : A -> A') (F : B -> B'),
  enumerates n enum enc Item ->
  (forall i, below n i -> enum' i = F (enum i)) -> (forall a, Item a -> F (enc a) = enc' (f a)) ->
  (forall a, Item a -> Item' (f a)) -> (forall a', Item' a' -> exists a, Item a /\ a' = f a) ->
  (forall x y, F x = F y -> x = y) ->
  enumerates n enum' enc' Item'.
Proof.
  intros A B A' B' n enum enc Item enum' enc' Item' f F (E1 & E2 & E3) N C I J FI. split; [|split].
  - intros i Hi. destruct (E1 i Hi) as (a & Ha & Hb). exists (f a). split; [auto|]. rewrite N, Hb by assumption. auto.
  - intros a' Ha'. destruct (J a' Ha') as (a & Ha & ->). destruct (E2 a Ha) as (i & Hi & Hb). exists i. split; [assumption|].
    rewrite N, Hb by assumption. auto.
  - intros i j Hi Hj H. rewrite (N i Hi), (N j Hj) in H. apply E3; auto.
Qed.

Definition l2 (c : Z * Z) : list Z := [fst c; snd c].
Definition l3 (c : Z * Z * Z) : list Z := [fst (fst c); snd (fst c); snd c].
Lemma rank_node2 : forall a b c, box2 (ax_n a + 1) (ax_n b + 1) c -> node_of [a; b] (l2 c).
Proof. intros a b [i j] [H1 H2]. unfold below in *. constructor; [cbn; lia|]. constructor; [cbn; lia|]. constructor. Qed.
Lemma rank_node3 : forall a b d c, box3 (ax_n a + 1) (ax_n b + 1) (ax_n d + 1) c -> node_of [a; b; d] (l3 c).
Proof.
  intros a b d [[i j] k] (H1 & H2 & H3). unfold below in *. constructor; [cbn; lia|]. constructor; [cbn; lia|]. constructor; [cbn; lia|]. constructor.
Qed.
Lemma index_of_node2 : forall nx ny i j, index_of_node [nx; ny] [i; j] = m_node_index_at2 nx (i, j).
Proof. reflexivity. Qed.
Lemma index_of_node3 : forall nx ny nz i j k, index_of_node [nx; ny; nz] [i; j; k] = m_node_index_at3 nx ny (i, j, k).
Proof. reflexivity. Qed.
Lemma node2_rank : forall a b c, usual [a; b] -> box2 (ax_n a + 1) (ax_n b + 1) c -> m_node_index_at2 (ax_n a) c = rank (nodes [a; b]) (l2 c).
Proof.
  intros a b [i j] U H. rewrite <- (index_of_node2 (ax_n a) (ax_n b)). exact (proj1 (nodes_numbered [a; b] [i; j] U (rank_node2 a b (i, j) H))).
Qed.
Lemma node3_rank : forall a b d c, usual [a; b; d] -> box3 (ax_n a + 1) (ax_n b + 1) (ax_n d + 1) c ->
  m_node_index_at3 (ax_n a) (ax_n b) c = rank (nodes [a; b; d]) (l3 c).
Proof.
  intros a b d [[i j] k] U H. rewrite <- (index_of_node3 (ax_n a) (ax_n b) (ax_n d)).
  exact (proj1 (nodes_numbered [a; b; d] [i; j; k] U (rank_node3 a b d (i, j, k) H))).
Qed.
Lemma returns_pair : forall x y : Z * Z, Returns (VList [IZR (fst x); IZR (snd x)]) = Returns (VList [IZR (fst y); IZR (snd y)]) -> x = y.
Proof. intros [a b] [c d] H. injection H as H1 H2. apply eq_IZR in H1, H2. cbn in *. congruence. Qed.
Lemma map_IZR_inj : forall x y : list Z, map IZR x = map IZR y -> x = y.
Proof.
  induction x as [|a x IH]; intros [|b y] H; try discriminate; [reflexivity|]. cbn in H. injection H as H1 H2.
  apply eq_IZR in H1. rewrite H1, (IH y H2). reflexivity.
Qed.


Definition edge_call (imp : bool) (g : grid) (i : Z) : outcome := call imp g "edge"%string [VInt i].
Lemma edge_call2 : forall imp a b i, usual [a; b] -> (0 <= i < 2 ^ 64)%Z ->
  edge_call imp [a; b] i = Returns (VList [IZR (fst (m_edge2 (ax_n a) i)); IZR (snd (m_edge2 (ax_n a) i))]).
Proof.
  intros imp a b i U Hi. unfold edge_call. erewrite call_chain by reflexivity. cbn [snd].
  rewrite (dispatch1 imp _ _ _ _ _ (load_unsigned i Hi) eq_refl). unfold edge_nodes. cbn [subdivisions map].
  destruct (m_edge2 (ax_n a) i) as [x y]. reflexivity.
Qed.
Lemma edge_divisor : forall a b d, usual [a; b; d] -> (3 * product (nodes [a; b; d]) <= 2 ^ 63)%Z ->
  (uadd (uadd (umul (uadd (umul 2 (ax_n a)) 1) (ax_n b)) (ax_n a)) (umul (uadd (ax_n a) 1) (uadd (ax_n b) 1)) =? 0)%Z = false.
Proof.
  intros a b d U H. pose proof fits_u as FU. apply Z.eqb_neq.
  destruct (usual_form _ U) as [(? & ? & E & _)|(a' & b' & d' & E & A & B & C & _)]; [discriminate E|]. injection E as <- <- <-.
  cbn [nodes map product fold_right] in H. rewrite Z.mul_1_r in H.
  assert (X : (0 < (ax_n a + 1) * (ax_n b + 1))%Z) by nia.
  assert (Y : (3 * ((ax_n a + 1) * (ax_n b + 1)) <= 2 ^ 63)%Z) by nia.
  erewrite uadd_exact; [|mcong|]; nia.
Qed.
Lemma edge_call3 : forall imp a b d i, usual [a; b; d] -> (3 * product (nodes [a; b; d]) <= 2 ^ 63)%Z -> (0 <= i < 2 ^ 64)%Z ->
  edge_call imp [a; b; d] i = Returns (VList [IZR (fst (m_edge3 (ax_n a) (ax_n b) i)); IZR (snd (m_edge3 (ax_n a) (ax_n b) i))]).
Proof.
  intros imp a b d i U H Hi. unfold edge_call. erewrite call_chain by reflexivity. cbn [snd].
  rewrite (dispatch1 imp _ _ _ _ _ (load_unsigned i Hi) eq_refl). unfold edge_nodes. cbn [subdivisions map]. rewrite (edge_divisor a b d U H).
  destruct (m_edge3 (ax_n a) (ax_n b) i) as [x y]. reflexivity.
Qed.

Lemma edges_numbered : forall imp g, usual g -> (3 * product (nodes g) <= 2 ^ 63)%Z ->
  exists n, call imp g "number_of_edges"%string [] = Returns (VInt n) /\
  enumerates n (edge_call imp g)
    (fun e => Returns (VList [IZR (rank (nodes g) (fst e)); IZR (rank (nodes g) (snd e))])) (lattice_edge g).
Proof.
  intros imp g U H. exists (count_edges (subdivisions g)). split.
  - chain_of U. reflexivity.
  - pose proof fits_u as FU. destruct (usual_form g U) as [(a & b & -> & A & B & _ & _ & P)|(a & b & d & -> & A & B & C & _ & _ & _ & P)];
    cbn [nodes map product fold_right] in H; cbn [subdivisions map count_edges].
    + assert (E : (0 <= number_of_edges2 (ax_n a) (ax_n b) <= 2 ^ 63)%Z) by (unfold number_of_edges2; nia).
      destruct (C80_edges (ax_n a) (ax_n b) 1 A B ltac:(lia)) as [X _]. specialize (X (proj2 E)).
      eapply enumerates_transport with (f := fun e => (l2 (fst e), l2 (snd e))) (F := fun x => Returns (VList [IZR (fst x); IZR (snd x)])) (1 := X).
      * intros i Hi. rewrite m_edges2 in Hi by lia. apply edge_call2; [assumption|]. unfold below in Hi. lia.
      * intros [x y] (I1 & I2 & _). cbn [fst snd]. rewrite !(node2_rank a b) by assumption. reflexivity.
      * intros [x y] (I1 & I2 & I3). cbn [fst snd] in *. split; [apply rank_node2; assumption|]. split; [apply rank_node2; assumption|].
        destruct x as [i j]. destruct I3 as [->| ->]; [exists [1; 0]%Z|exists [0; 1]%Z]; split; try (cbn; tauto); reflexivity.
      * intros [x y] (I1 & I2 & u & Hu & E2). cbn [fst snd] in *. destruct (node_of2 a b x I1) as (i & j & -> & Hb).
        destruct (node_of2 a b y I2) as (i' & j' & -> & Hb'). exists ((i, j), (i', j')). split; [|reflexivity]. split; [assumption|]. split; [assumption|].
        cbn in Hu. destruct Hu as [<-|[<-|[]]]; cbn in E2; injection E2 as -> ->; [left|right]; reflexivity.
      * apply returns_pair.
    + assert (E : (0 <= number_of_edges3 (ax_n a) (ax_n b) (ax_n d) <= 2 ^ 63)%Z).
      { unfold number_of_edges3. split; [nia|]. rewrite Z.mul_1_r in H. nia. }
      destruct (C80_edges (ax_n a) (ax_n b) (ax_n d) A B C) as [_ X]. specialize (X (proj2 E)).
      eapply enumerates_transport with (f := fun e => (l3 (fst e), l3 (snd e))) (F := fun x => Returns (VList [IZR (fst x); IZR (snd x)])) (1 := X).
      * intros i Hi. rewrite m_edges3 in Hi by lia. apply edge_call3; [assumption|exact H|]. unfold below in Hi. lia.
      * intros [x y] (I1 & I2 & _). cbn [fst snd]. rewrite !(node3_rank a b d) by assumption. reflexivity.
      * intros [x y] (I1 & I2 & I3). cbn [fst snd] in *. split; [apply rank_node3; assumption|]. split; [apply rank_node3; assumption|].
        destruct x as [[i j] k]. destruct I3 as [->|[->| ->]]; [exists [1; 0; 0]%Z|exists [0; 1; 0]%Z|exists [0; 0; 1]%Z]; split; try (cbn; tauto); reflexivity.
      * intros [x y] (I1 & I2 & u & Hu & E2). cbn [fst snd] in *. destruct (node_of3 a b d x I1) as (i & j & k & -> & Hb).
        destruct (node_of3 a b d y I2) as (i' & j' & k' & -> & Hb'). exists ((i, j, k), (i', j', k')). split; [|reflexivity]. split; [assumption|]. split; [assumption|].
        cbn in Hu. destruct Hu as [<-|[<-|[<-|[]]]]; cbn in E2; injection E2 as -> -> ->; [left|right; left|right; right]; reflexivity.
      * apply returns_pair.
Qed.

Definition face_call (imp : bool) (g : grid) (i : Z) : outcome := call imp g "face"%string [VInt i].
Lemma faces_numbered : forall imp g, usual g -> length g = 3 -> (3 * product (nodes g) <= 2 ^ 63)%Z ->
  exists n, call imp g "number_of_faces"%string [] = Returns (VInt n) /\
  enumerates n (face_call imp g) (fun sq => Returns (VList (map IZR (map (rank (nodes g)) sq)))) (lattice_square g).
Proof.
  intros imp g U L H. pose proof fits_u as FU.
  destruct (usual_form g U) as [(a & b & -> & _)|(a & b & d & -> & A & B & C & _ & _ & _ & P)]; [discriminate L|].
  cbn [nodes map product fold_right] in H. rewrite Z.mul_1_r in H.
  assert (X : (0 < (ax_n a + 1) * (ax_n b + 1))%Z) by nia.
  assert (Y : (3 * ((ax_n a + 1) * (ax_n b + 1)) <= 2 ^ 63)%Z) by nia.
  exists (m_number_of_faces3 (ax_n a) (ax_n b) (ax_n d)). split; [reflexivity|].
  assert (E : (0 <= number_of_faces3 (ax_n a) (ax_n b) (ax_n d) < 2 ^ 64)%Z).
  { unfold number_of_faces3. split; [nia|]. assert (0 < ax_n a * ax_n b)%Z by nia. nia. }
  assert (N : forall i, below (m_number_of_faces3 (ax_n a) (ax_n b) (ax_n d)) i ->
              face_call imp [a; b; d] i = Returns (VList (map IZR (m_face3 (ax_n a) (ax_n b) i)))).
  { intros i Hi. rewrite m_faces3 in Hi by assumption. unfold face_call, call, call_of.
    change (find_method (Grid [a; b; d]) "face") with (Some [f1 PUnsigned (on_unsigned (face_nodes (subdivisions [a; b; d])))]). cbv beta iota.
    rewrite (dispatch1 imp PUnsigned _ (VInt i) (LUnsigned i) (face_nodes (subdivisions [a; b; d]) i)); [|apply load_unsigned; unfold below in Hi; lia|reflexivity].
    unfold face_nodes. cbn [subdivisions map].
    assert (Z1 : (uadd (umul (ax_n a) (ax_n b)) (uadd (umul (uadd (ax_n a) 1) (ax_n b)) (umul (ax_n a) (uadd (ax_n b) 1))) =? 0)%Z = false).
    { apply Z.eqb_neq. erewrite uadd_exact; [|mcong|]; nia. }
    assert (Z2 : (ax_n a =? 0)%Z = false) by (apply Z.eqb_neq; lia).
    assert (Z3 : (umul (uadd (ax_n a) 1) (uadd (ax_n b) 1) =? 0)%Z = false).
    { apply Z.eqb_neq. erewrite umul_exact; [|mcong|]; nia. }
    assert (Z4 : (uadd (ax_n a) 1 =? 0)%Z = false).
    { apply Z.eqb_neq. erewrite uadd_exact; [|mcong|]; nia. }
    rewrite Z1, Z2, Z3, Z4. reflexivity. }
  assert (F : enumerates (m_number_of_faces3 (ax_n a) (ax_n b) (ax_n d)) (m_face3 (ax_n a) (ax_n b))
             (map (m_node_index_at3 (ax_n a) (ax_n b))) (unit_square3 (ax_n a) (ax_n b) (ax_n d))).
  { apply C80_faces; try assumption; lia. }
  eapply enumerates_transport with (f := map l3) (F := fun x => Returns (VList (map IZR x))) (1 := F); [exact N| | | |].
  - intros sq (p & u & v & _ & _ & I). do 3 f_equal. rewrite map_map. apply map_ext_in. intros c Hc. apply node3_rank; [assumption|].
    rewrite Forall_forall in I. apply I. assumption.
  - intros sq (p & u & v & D & -> & I). split.
    + rewrite Forall_forall in *. intros c Hc. rewrite in_map_iff in Hc. destruct Hc as (c' & <- & Hc). apply rank_node3. apply I. assumption.
    + exists (l3 p), (l3 u), (l3 v). destruct p as [[i j] k]. split; [|reflexivity].
      destruct D as [[-> ->]|[[-> ->]|[-> ->]]]; cbn; tauto.
  - intros sq (I & p & u & v & D & ->). pose proof I as I'. rewrite Forall_cons_iff in I'. destruct (node_of3 a b d p (proj1 I')) as (i & j & k & -> & _).
    set (t := fun l : list Z => (nth 0 l 0, nth 1 l 0, nth 2 l 0)%Z).
    assert (K : forall l, node_of [a; b; d] l -> box3 (ax_n a + 1) (ax_n b + 1) (ax_n d + 1) (t l)).
    { intros l Hl. destruct (node_of3 a b d l Hl) as (? & ? & ? & -> & Hb). exact Hb. }
    exists (map t [[i; j; k]; plus [i; j; k] u; plus (plus [i; j; k] u) v; plus [i; j; k] v]%Z). split.
    + exists (i, j, k), (t u), (t v). split; [|split].
      * cbn in D. destruct D as [E1|[E1|[E1|[]]]]; injection E1 as <- <-; cbn; tauto.
      * cbn in D. destruct D as [E1|[E1|[E1|[]]]]; injection E1 as <- <-; reflexivity.
      * rewrite Forall_forall in *. intros c Hc. rewrite in_map_iff in Hc. destruct Hc as (c' & <- & Hc). apply K, I. assumption.
    + cbn in D. destruct D as [E1|[E1|[E1|[]]]]; injection E1 as <- <-; reflexivity.
  - intros x y E1. injection E1 as E1. apply map_IZR_inj. assumption.
Qed.
