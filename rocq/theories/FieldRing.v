(** Coq's [ring] on the scalars of a mathcomp real field.  No part of the program is modelled here. *)

From mathcomp Require Import all_ssreflect all_algebra.
From Coq Require Import Ring.
Set Implicit Arguments.
Unset Strict Implicit.
Unset Printing Implicit Defensive.
Import GRing.Theory Num.Theory.
Local Open Scope ring_scope.

Section Scalars.
Variable F : realFieldType.
Definition fadd (x y : F) : F := x + y.
Definition fmul (x y : F) : F := x * y.
Definition fopp (x : F) : F := - x.
Definition fsub (x y : F) : F := x - y.
Definition f0 : F := 0.
Definition f1 : F := 1.
Lemma field_ring_theory : @ring_theory (Num.RealField.sort F) f0 f1 fadd fmul fsub fopp eq.
Proof.
split; [exact: add0r | exact: addrC | exact: addrA | exact: mul1r | exact: mulrC | exact: mulrA | exact: mulrDl
       | by [] | exact: subrr].
Qed.
Lemma eadd (x y : F) : x + y = fadd x y. Proof. by []. Qed.
Lemma emul (x y : F) : x * y = fmul x y. Proof. by []. Qed.
Lemma eopp (x : F) : - x = fopp x. Proof. by []. Qed.
Lemma e0 : 0 = f0. Proof. by []. Qed.
Lemma e1 : 1 = f1. Proof. by []. Qed.
End Scalars.

Ltac fring F :=
  rewrite ?mulr2n ?expr2 ?eadd ?emul ?eopp ?e0 ?e1;
  repeat match goal with |- context [fun_of_matrix ?M ?i ?j] =>
    let t := fresh "t" in pose (t := fun_of_matrix M i j : Num.RealField.sort F);
    change (fun_of_matrix M i j) with t; clearbody t end;
  match goal with |- @eq _ ?a ?b => change (@eq (Num.RealField.sort F) a b) end; ring.
