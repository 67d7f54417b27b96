(** Meshes for the patch test (C97). *)

From Coq Require Import ZArith Reals Lra Lia.
From Coquelicot Require Import Coquelicot.
From Coq Require Import List Arith Bool Permutation.
From Verif Require Import GridGeoModel ShapeModel ShapeSpec ShapeProofs ShapeFieldProofs ShapeGaussProofs LinAlg LinAlgProofs BarycentricModel MappingSpec MappingProofs TensorModel TensorSpec
  MaterialModel MaterialSpec MaterialProofs SparseModel SparseProofs Sums HyperModel HyperSpec HyperProofs HyperProofs2 HyperProofs3 HyperProofs4 HyperProperties
  StabilityProofs StabilityProofs2 EnergySpec EnergyProofs PatchSpec PatchProofs PatchProofs2.
Import ListNotations.
Open Scope R_scope.

(** Three quadratic tetrahedra around the edge from (0, 0, 0) to (0, 0, 1), whose middle is node 5; the nodes 6 and 7 are moved away from the middles of their edges by 1/4. *)
Definition bent_ring : domain :=
  {| dim := 3; kind := Tetrahedron_Quadratic;
     positions := [ [0; 0; 0]; [0; 0; 1]; [1; 0; 0]; [0; 1; 0]; [-1; -1; 0]; [0; 0; 1/2]; [1/2; 1/4; 0]; [0; 1/2; 1/4]; [-1/2; -1/2; 0]; [1/2; 0; 1/2];
                    [0; 1/2; 1/2]; [-1/2; -1/2; 1/2]; [1/2; 1/2; 0]; [-1/2; 0; 0]; [0; -1/2; 0] ];
     connectivity := [ [0; 2; 3; 1; 6; 12; 7; 5; 9; 10]; [0; 3; 4; 1; 7; 13; 8; 5; 10; 11]; [0; 4; 2; 1; 8; 14; 6; 5; 11; 9] ]%nat |}.

Lemma bent_ring_solid : solid bent_ring.
Proof.
  split; [|split; [reflexivity|split; [reflexivity|repeat constructor]]].
  apply Forall_forall. intros row Hr. cbn in Hr. repeat (destruct Hr as [<-|Hr]; [split; [reflexivity|repeat constructor; cbn; lia]|]). destruct Hr.
Qed.
Lemma bent_ring_numbered : numbered_alike bent_ring 1.
Proof.
  split; [left; reflexivity|]. apply Forall_forall. intros row Hr. cbn in Hr.
  apply Forall_forall. intros g Hg. cbn [kind bent_ring gauss_nodes] in Hg. unfold Tetrahedron_Quadratic_gauss in Hg.
  repeat (destruct Hr as [<-|Hr]; [cbn in Hg; repeat (destruct Hg as [<-|Hg]; [cbv -[Rplus Rmult Rminus Ropp Rdiv Rinv IZR Rlt]; lra|]); destruct Hg|]). destruct Hr.
Qed.
Ltac same_faces :=
  apply NoDup_Permutation; [repeat (constructor; [cbn; intuition discriminate|]); constructor|repeat (constructor; [cbn; intuition discriminate|]); constructor|intros f; cbn; tauto].
Lemma bent_ring_interior : interior bent_ring 5.
Proof. unfold interior, paired. cbv. same_faces. Qed.

(** The same sum for any rule of the same form. *)
Definition rule (lo : R) : list (list R * R) :=
  [ ([lo; lo; lo], 1/24); ([lo; lo; 1 - 3 * lo], 1/24); ([lo; 1 - 3 * lo; lo], 1/24); ([1 - 3 * lo; lo; lo], 1/24) ].
Lemma rule_used : gauss_nodes Tetrahedron_Quadratic = rule 0.1381966011250105.
Proof.
  cbn [gauss_nodes]. unfold Tetrahedron_Quadratic_gauss, rule.
  replace 0.5854101966249685 with (1 - 3 * 0.1381966011250105) by (cbv -[Rplus Rmult Rminus Ropp Rdiv Rinv IZR]; lra). reflexivity.
Qed.
Lemma rule_sum lo : Rsum (map (fun row => Rsum (map (fun a => if Nat.eqb (nth a row 0%nat) 5 then nodal_integral Tetrahedron_Quadratic (rule lo) (nodes_of_element bent_ring row) a 0 else 0)
        (seq 0 10))) (connectivity bent_ring)) = 1/3 - 11/3 * lo + 31/3 * (lo * lo) - 8 * (lo * lo * lo).
Proof.
  cbn [connectivity bent_ring map seq nth Nat.eqb]. unfold nodal_integral, rule. cbv -[Rplus Rmult Rminus Ropp Rdiv Rinv IZR]. field.
Qed.
Lemma bent_ring_sum : Rsum (map (fun row => Rsum (map (fun a => if Nat.eqb (nth a row 0%nat) 5 then nodal_integral Tetrahedron_Quadratic (gauss_nodes Tetrahedron_Quadratic) (nodes_of_element bent_ring row) a 0 else 0)
        (seq 0 10))) (connectivity bent_ring)) <> 0.
Proof. rewrite rule_used, rule_sum. cbv -[Rplus Rmult Rminus Ropp Rdiv Rinv IZR]. lra. Qed.
