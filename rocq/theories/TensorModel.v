(** Symmetric dyads: /repo/src/Caribou/Algebra/Tensor.h. *)

From Coq Require Import Reals List.
Import ListNotations.
Open Scope R_scope.

(** a(i,j) *)
Definition e (a : list (list R)) (i j : nat) : R := nth j (nth i a []) 0.

(** Lines 15-25 *)
Definition symmetric_dyad_1 (a : list (list R)) : list (list R) :=
  [ [ e a 0 0 * e a 0 0; e a 0 0 * e a 1 1; e a 0 0 * e a 2 2; e a 0 0 * e a 0 1; e a 0 0 * e a 1 2; e a 0 0 * e a 0 2 ];
    [ e a 0 0 * e a 1 1; e a 1 1 * e a 1 1; e a 1 1 * e a 2 2; e a 1 1 * e a 0 1; e a 1 1 * e a 1 2; e a 1 1 * e a 0 2 ];
    [ e a 0 0 * e a 2 2; e a 1 1 * e a 2 2; e a 2 2 * e a 2 2; e a 2 2 * e a 0 1; e a 2 2 * e a 1 2; e a 2 2 * e a 0 2 ];
    [ e a 0 0 * e a 0 1; e a 1 1 * e a 0 1; e a 2 2 * e a 0 1; e a 0 1 * e a 0 1; e a 0 1 * e a 1 2; e a 0 1 * e a 0 2 ];
    [ e a 0 0 * e a 1 2; e a 1 1 * e a 1 2; e a 2 2 * e a 1 2; e a 0 1 * e a 1 2; e a 1 2 * e a 1 2; e a 1 2 * e a 0 2 ];
    [ e a 0 0 * e a 0 2; e a 1 1 * e a 0 2; e a 2 2 * e a 0 2; e a 0 1 * e a 0 2; e a 1 2 * e a 0 2; e a 0 2 * e a 0 2 ] ].

(** Lines 35-45 *)
Definition symmetric_dyad_2 (a : list (list R)) : list (list R) :=
  [ [ e a 0 0 * e a 0 0; e a 0 1 * e a 0 1; e a 0 2 * e a 0 2; e a 0 0 * e a 0 1; e a 0 1 * e a 0 2; e a 0 0 * e a 0 2 ];
    [ e a 0 1 * e a 0 1; e a 1 1 * e a 1 1; e a 1 2 * e a 1 2; e a 1 1 * e a 0 1; e a 1 1 * e a 1 2; e a 1 2 * e a 0 1 ];
    [ e a 0 2 * e a 0 2; e a 1 2 * e a 1 2; e a 2 2 * e a 2 2; e a 1 2 * e a 0 2; e a 2 2 * e a 1 2; e a 2 2 * e a 0 2 ];
    [ e a 0 0 * e a 0 1; e a 1 1 * e a 0 1; e a 1 2 * e a 0 2; 1 / 2 * (e a 0 0 * e a 1 1 + e a 0 1 * e a 0 1); 1 / 2 * (e a 0 1 * e a 1 2 + e a 0 2 * e a 1 1); 1 / 2 * (e a 0 0 * e a 1 2 + e a 0 2 * e a 0 1) ];
    [ e a 0 1 * e a 0 2; e a 1 1 * e a 1 2; e a 2 2 * e a 1 2; 1 / 2 * (e a 0 1 * e a 1 2 + e a 0 2 * e a 1 1); 1 / 2 * (e a 1 1 * e a 2 2 + e a 1 2 * e a 1 2); 1 / 2 * (e a 0 1 * e a 2 2 + e a 1 2 * e a 0 2) ];
    [ e a 0 0 * e a 0 2; e a 1 2 * e a 0 1; e a 2 2 * e a 0 2; 1 / 2 * (e a 0 0 * e a 1 2 + e a 0 2 * e a 0 1); 1 / 2 * (e a 0 1 * e a 2 2 + e a 1 2 * e a 0 2); 1 / 2 * (e a 0 0 * e a 2 2 + e a 0 2 * e a 0 2) ] ].
