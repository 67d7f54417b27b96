(** Vocabulary for the distribution of volume ratios (C100). *)

From Coq Require Import Reals ZArith List Arith Sorted.
From Verif Require Import GridGeoModel FictModel FictSpec.
Import ListNotations.
Open Scope R_scope.

(** The table has increasing keys, gives each of them at least one cell, in increasing order, and gives r the cells below n that have the value r. *)
Definition sorts_by (value : nat -> R -> Prop) (n : nat) (m : list (R * list nat)) : Prop :=
  StronglySorted Rlt (map fst m) /\ Forall (fun e => snd e <> [] /\ StronglySorted lt (snd e)) m /\
  forall r c, (exists l, In (r, l) m /\ In c l) <-> (c < n)%nat /\ value c r.

(** The part of the volume of the cell c that is kept: that of its leaves inside or on the boundary. *)
Definition kept_part (g : grid) (comp : component) (c : nat) (r : R) : Prop :=
  exists l, leaves_of_cell (forest comp) c l /\ r * cell_volume g = kept_volume g (leaf_type comp) l.
(** The multiple of 10^-d nearest to r, the largest one if there are two; no rounding if d is zero. *)
Definition rounded (d : nat) (r q : R) : Prop :=
  match d with
  | O => q = r
  | _ => exists k : Z, q = IZR k / 10 ^ d /\ IZR k - / 2 <= r * 10 ^ d < IZR k + / 2
  end.
Definition volume_ratio (g : grid) (comp : component) (d : nat) (c : nat) (q : R) : Prop := exists r, kept_part g comp c r /\ rounded d r q.
