(** * C92: elements made in Python are those the arguments describe. *)

From Coq Require Import ZArith Reals Lra Lia List Arith Bool.
From Verif Require Import GridGeoModel ShapeModel ShapeSpec RectModel FactoryModel FactorySpec FactoryProofs.
Import ListNotations.
Open Scope nat_scope.

(** Points given one after the other, whatever each of them is given as. *)
Theorem C92_separate : forall f D o ks points, exists_in f D -> D <> 1 -> length ks = NumberOfNodes (element_of f o) ->
  table (NumberOfNodes (element_of f o)) D points ->
  function_of f (separately ks points) = Some (Element D (element_of f o) points).
Proof. exact separate. Qed.
Print Assumptions C92_separate.

(** All the points in one array. *)
Theorem C92_together : forall f D o k points, exists_in f D -> table (NumberOfNodes (element_of f o)) D points ->
  function_of f [together k (NumberOfNodes (element_of f o)) D points] = Some (Element D (element_of f o) points).
Proof. exact in_one. Qed.
Print Assumptions C92_together.

(** The points of a linear element and the order asked for: the element itself, or a quadratic one with its geometry. *)
Theorem C92_with_order : forall f D o ks k points, exists_in f D -> f <> OfSegments -> length ks = NumberOfNodes (element_of f Linear) ->
  table (NumberOfNodes (element_of f Linear)) D points ->
  exists nodes, function_of f (separately ks points ++ [OrderV o]) = Some (Element D (element_of f o) nodes) /\
    function_of f [together k (NumberOfNodes (element_of f Linear)) D points; OrderV o] = Some (Element D (element_of f o) nodes) /\
    match o with Linear => nodes = points | Quadratic => same_geometry D (element_of f Linear) points (element_of f Quadratic) nodes end.
Proof.
  intros f D o ks k points H Hf Hk T. destruct (promoted f D o points H Hf T) as (nodes & E & G). exists nodes.
  split; [rewrite (separate_order f D o ks points H Hf Hk T); exact E|]. split; [rewrite (in_one_order f D o k points H Hf T); exact E|exact G].
Qed.
Print Assumptions C92_with_order.

(** Segments in one dimension: numbers, or an array of them. *)
Theorem C92_numbers : forall o k xs, length xs = NumberOfNodes (element_of OfSegments o) ->
  Segment (map Float xs) = Some (Element 1 (element_of OfSegments o) (map (fun x => [x]) xs)) /\
  Segment [Arr k (Vec xs)] = Some (Element 1 (element_of OfSegments o) (map (fun x => [x]) xs)).
Proof. intros o k xs H. split; [exact (segment_of_numbers o xs H)|exact (segment_of_array o k xs H)]. Qed.
Print Assumptions C92_numbers.

(** Without nodes: the reference element, in the smallest dimension or in the one asked for. *)
Theorem C92_reference : forall f o, exists D nodes nodes1, exists_in f D /\ (forall D', exists_in f D' -> D <= D') /\
  function_of f [OrderV o] = Some (Element D (element_of f o) nodes) /\ reference_in D (element_of f o) nodes /\
  function_of f [] = Some (Element D (element_of f Linear) nodes1) /\ reference_in D (element_of f Linear) nodes1.
Proof.
  intros f o. destruct (without_nodes f o) as [A B].
  assert (H : exists_in f (smallest f)) by (destruct f; cbn; auto).
  exists (smallest f), (reference_nodes (smallest f) (element_of f o)), (reference_nodes (smallest f) (element_of f Linear)).
  split; [exact H|]. split; [intros D'; destruct f; cbn; lia|]. split; [exact B|]. split; [apply reference_is; exact H|].
  split; [exact A|apply reference_is; exact H].
Qed.
Print Assumptions C92_reference.

Theorem C92_reference_in : forall f d o, In f [OfSegments; OfTriangles; OfQuads] -> exists_in f (number d) -> exists nodes nodes1,
  function_of f [DimensionV d; OrderV o] = Some (Element (number d) (element_of f o) nodes) /\ reference_in (number d) (element_of f o) nodes /\
  function_of f [DimensionV d] = Some (Element (number d) (element_of f Linear) nodes1) /\ reference_in (number d) (element_of f Linear) nodes1.
Proof.
  intros f d o Hf H. destruct (without_nodes_in f d o Hf H) as [A B].
  exists (reference_nodes (number d) (element_of f o)), (reference_nodes (number d) (element_of f Linear)).
  split; [exact B|]. split; [apply reference_is; exact H|]. split; [exact A|apply reference_is; exact H].
Qed.
Print Assumptions C92_reference_in.

(** Whatever the arguments are: an element that is returned is of the family asked for and carries the numbers of the
    arguments in the order they were written; or those of a linear element it has the geometry of; or there were none. *)
Theorem C92_every_call : forall f vs m, function_of f vs = Some m ->
  exists D o nodes, m = Element D (element_of f o) nodes /\ exists_in f D /\ table (NumberOfNodes (element_of f o)) D nodes /\
    (Forall without_numbers vs /\ reference_in D (element_of f o) nodes \/
     concat nodes = concat (map numbers vs) \/
     o = Quadratic /\ exists linear, table (NumberOfNodes (element_of f Linear)) D linear /\ concat linear = concat (map numbers vs) /\
       same_geometry D (element_of f Linear) linear (element_of f Quadratic) nodes).
Proof. exact every_call. Qed.
Print Assumptions C92_every_call.

(** Rectangular hexahedra: from their center, size and rotation, and from an array of nodes. *)
Theorem C92_rectangular_boxes : forall o k1 k2 k3 c H M, length c = 3 -> length H = 3 -> table 3 3 M -> exists e,
  RectangularHexahedron [OrderV o; Arr k1 (Vec c); Arr k2 (Vec H); together k3 3 3 M] =
    Some (Rectangular e {| p_center := c; p_H := H; p_R := M |}) /\
  RectangularHexahedron [OrderV o; Arr k1 (Vec c); Arr k2 (Vec H)] =
    Some (Rectangular e {| p_center := c; p_H := H; p_R := [[1%R; 0%R; 0%R]; [0%R; 1%R; 0%R]; [0%R; 0%R; 1%R]] |}) /\
  RectangularHexahedron [OrderV o; Arr k1 (Vec c)] =
    Some (Rectangular e {| p_center := c; p_H := [2%R; 2%R; 2%R]; p_R := [[1%R; 0%R; 0%R]; [0%R; 1%R; 0%R]; [0%R; 0%R; 1%R]] |}) /\
  e = match o with Linear => RectangularHexahedron_Linear | Quadratic => RectangularHexahedron_Quadratic end.
Proof.
  intros o k1 k2 k3 c H M Hc HH HM. destruct (rectangular_boxes o k1 k2 k3 c H M Hc HH HM) as (A & B & C). exists (rectangular_order o).
  split; [exact C|]. split; [exact B|]. split; [exact A|reflexivity].
Qed.
Print Assumptions C92_rectangular_boxes.

Theorem C92_rectangular_array : forall o k points, table (NumberOfNodes (element_of OfHexahedra o)) 3 points ->
  exists r, RectangularHexahedron [together k (NumberOfNodes (element_of OfHexahedra o)) 3 points] =
    Some (Rectangular (match o with Linear => RectangularHexahedron_Linear | Quadratic => RectangularHexahedron_Quadratic end) r).
Proof. intros o k points T. eexists. exact (rectangular_of_array o k points T). Qed.
Print Assumptions C92_rectangular_array.

(** With the same nodes given one after the other it is never a rectangular hexahedron that is returned. *)
Theorem C92_rectangular_refuted : forall o ks points, length ks = NumberOfNodes (element_of OfHexahedra o) ->
  table (NumberOfNodes (element_of OfHexahedra o)) 3 points ->
  RectangularHexahedron (separately ks points) = Some (Element 3 (element_of OfHexahedra o) points).
Proof. exact rectangular_of_points. Qed.
Print Assumptions C92_rectangular_refuted.

(** Asked for a triangle or a quad in one dimension, the functions return one in three. *)
Theorem C92_dimension_refuted : forall f o, In f [OfTriangles; OfQuads] -> exists nodes nodes1,
  function_of f [DimensionV D1; OrderV o] = Some (Element 3 (element_of f o) nodes) /\
  function_of f [DimensionV D1] = Some (Element 3 (element_of f Linear) nodes1).
Proof. intros f o [<-|[<-|[]]]; destruct o; eexists; eexists; split; reflexivity. Qed.
Print Assumptions C92_dimension_refuted.

(** A triangle from a list, an array of integers and an array of doubles; a quadratic one from its corners. *)
Example C92_triangle : function_of OfTriangles (separately [PythonList; OtherNumbers; Doubles] [[50%R; 50%R; 5%R]; [60%R; 50%R; 21%R]; [55%R; 55%R; 1%R]]) =
  Some (Element 3 Triangle_Linear [[50%R; 50%R; 5%R]; [60%R; 50%R; 21%R]; [55%R; 55%R; 1%R]]).
Proof. apply (C92_separate OfTriangles 3 Linear); [right; reflexivity|discriminate|reflexivity|]. split; [reflexivity|]. repeat constructor. Qed.
Example C92_promoted : exists nodes, Quad [together Doubles 4 2 [[0%R; 0%R]; [2%R; 0%R]; [3%R; 1%R]; [0%R; 1%R]]; OrderV Quadratic] = Some (Element 2 Quad_Quadratic nodes).
Proof. eexists. reflexivity. Qed.
(** Too few points, or points in different dimensions: a TypeError. *)
Example C92_mixed : Triangle [Arr Doubles (Vec [0%R; 0%R]); Arr Doubles (Vec [1%R; 0%R; 0%R]); Arr Doubles (Vec [0%R; 1%R])] = None /\
  Segment [Arr Doubles (Vec [0%R; 0%R]); Arr Doubles (Vec [1%R; 0%R]); OrderV Quadratic] = None.
Proof. split; reflexivity. Qed.
