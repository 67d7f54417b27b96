(** Vocabulary for the properties of the legacy static solver. *)

From mathcomp Require Import all_ssreflect all_algebra.
From Verif Require Import CGModel NewtonModel NewtonSpec LegacyModel.
Set Implicit Arguments.
Unset Strict Implicit.
Unset Printing Implicit Defensive.
Import GRing.Theory Num.Theory Order.TTheory.
Local Open Scope ring_scope.

Section Spec.
Variable F : realFieldType.
Variable V : lmodType F.
Variable dotV : V -> V -> F.

(** One of the two criteria holds after the k-th iteration (k >= 1): the last increment is small compared with their sum, or
    the residual is small compared with the one of reference. *)
Definition legacy_criterion (cfg : legacy_config F) (incs : seq (option V)) (R : seq (option F)) (reference : option F) (k : nat) : bool :=
  let c := l_correction_tolerance_threshold cfg in
  let r := l_residual_tolerance_threshold cfg in
  (0 < c) && olt (norm2 dotV (nth None incs k.-1)) (oscale (c * c) (norm2 dotV (sum_of (take k incs)))) ||
  (0 < r) && olt (nth None R k.-1) (oscale (r * r) reference).
(** The iteration produced something that is not a number, or a total increment that is (almost) zero. *)
Definition legacy_broken (cfg : legacy_config F) (incs : seq (option V)) (R : seq (option F)) (k : nat) : bool :=
  [|| isnan (nth None R k.-1), isnan (nth None incs k.-1) |
      olt (norm2 dotV (sum_of (take k incs))) (Some (l_EPSILON cfg))].
(** The residual grew during the k-th iteration and the user asked to stop then. *)
Definition legacy_growing (cfg : legacy_config F) (R : seq (option F)) (k : nat) : bool :=
  [&& shoud_diverge_when_residual_is_growing cfg, (1 < k)%N & olt (nth None R k.-2) (nth None R k.-1)].
End Spec.
