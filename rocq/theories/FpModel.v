(** The double of the code (FLOATING_POINT_TYPE, /repo/src/Caribou/Config/config.h.in:7-22): IEEE 754 binary64 with rounding to nearest even, every operation rounded
    (no contraction into fused multiply-adds, no extended precision).  NaN and the infinities are values.
    Flocq's binary_float 53 1024 is the type of these numbers, with one NaN. *)

From Coq Require Import ZArith.
From Flocq Require Import Core.Core IEEE754.BinarySingleNaN.
Open Scope Z_scope.

Global Instance prec53 : Prec_gt_0 53 := eq_refl.
Global Instance emax1024 : Prec_lt_emax 53 1024 := eq_refl.

Definition double : Type := binary_float 53 1024.
Definition fadd (x y : double) : double := Bplus mode_NE x y.
Definition fsub (x y : double) : double := Bminus mode_NE x y.
Definition fmul (x y : double) : double := Bmult mode_NE x y.
Definition fdiv (x y : double) : double := Bdiv mode_NE x y.
Definition fneg (x : double) : double := Bopp x.
Definition flt (x y : double) : bool := Bltb x y.
Definition fle (x y : double) : bool := Bleb x y.
(** static_cast<double> of an integer. *)
Definition of_int (z : Z) : double := binary_normalize 53 1024 _ _ mode_NE z 0 false.
(** static_cast of a double to a 64-bit signed integer: truncation; undefined behaviour ([None]) for a NaN or if the result does not fit. *)
Definition to_int (x : double) : option Z :=
  if is_finite x then let z := Btrunc x in if ((- 2 ^ 63 <=? z) && (z <? 2 ^ 63))%bool then Some z else None else None.
(** std::round (halves away from zero) and std::floor. *)
Definition fround (x : double) : double := Bnearbyint mode_NA x.
Definition ffloor (x : double) : double := Bnearbyint mode_DN x.

(** m * 2^e, for constants. *)
Definition dbl (m e : Z) : double := binary_normalize 53 1024 _ _ mode_NE m e false.
(** The literal 1.0e-19 (config.h.in:22): 10^19 is a double, so this is the nearest double. *)
Definition EPS : double := fdiv (of_int 1) (of_int (10 ^ 19)).
