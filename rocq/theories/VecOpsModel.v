(** Operations on the vectors of the mechanical states: /repo/src/SofaCaribou/Visitor/MultiVecEqualVisitor.cpp (a := b) and
    /repo/src/SofaCaribou/Algebra/BaseVectorOperations.cpp (dot).
    Simplifications: reals are exact (the precision of the stored numbers and of the accumulator is not modelled); a coordinate and a derivative
    of the same template are converted without loss; the mechanical states of the scene are given in the order of the visit. *)

From Coq Require Import Reals List Arith Bool.
Import ListNotations.
Open Scope R_scope.

(** ** a := b *)

Section Copy.
Variable value : Type.
Variable zero : value.

Inductive template := Vec1 | Vec2 | Vec3 | OtherTemplate.
(** A mechanical state: is it mapped; its template; its vectors of identifiers a and b. *)
Record state := State { mapped : bool; name : template; vec_a : list value; vec_b : list value }.

(** MultiVecEqualVisitor.cpp:25-33 (internal_copy): [resize] completes with zeros. *)
Definition resize (n : nat) (a : list value) : list value := firstn n a ++ repeat zero (n - length a).
Fixpoint write (a : list value) (i : nat) (v : value) : list value :=
  match a, i with [], _ => [] | _ :: a, O => v :: a | x :: a, S i => x :: write a i v end.
Definition internal_copy (a b : list value) : list value :=
  let a := if (length a <? length b)%nat then resize (length b) a else a in
  fold_left (fun a p => write a (fst p) (snd p)) (combine (seq 0 (length b)) b) a.

(** MultiVecEqualVisitor.cpp:71-84 (copy) with 36-69: an exception for the other templates. *)
Definition copy (s : state) : option state :=
  match name s with
  | OtherTemplate => None
  | _ => Some (State (mapped s) (name s) (internal_copy (vec_a s) (vec_b s)) (vec_b s))
  end.
(** MultiVecEqualVisitor.cpp:6-19 and MultiVecEqualVisitor.h: which states are concerned by the options [mapped] and [only_mapped]. *)
Definition concerned (p_mapped p_only_mapped : bool) (s : state) : bool :=
  if mapped s then p_mapped || p_only_mapped else negb p_only_mapped.
(** The visit: the states after it, and whether it ended (an exception stops it). *)
Fixpoint visit (p_mapped p_only_mapped : bool) (l : list state) : list state * bool :=
  match l with
  | [] => ([], true)
  | s :: l =>
    if concerned p_mapped p_only_mapped s then
      match copy s with
      | None => (s :: l, false)
      | Some s => let r := visit p_mapped p_only_mapped l in (s :: fst r, snd r)
      end
    else let r := visit p_mapped p_only_mapped l in (s :: fst r, snd r)
  end.
End Copy.

(** ** dot *)

(** SReal is double (the default configuration of SOFA). *)
Inductive vector_type := FullDouble | FullFloat | OtherVector.
Record vector := Vector { type : vector_type; elements : list R }.
(** [None]: an element out of the vector is read. *)
Fixpoint accumulate (l : list nat) (v1 v2 : list R) (total : R) : option R :=
  match l with
  | [] => Some total
  | i :: l => match nth_error v1 i, nth_error v2 i with Some a, Some b => accumulate l v1 v2 (total + a * b) | _, _ => None end
  end.
(** BaseVectorOperations.cpp:26-47 and SOFA's FullVector::dot: a loop over the size of the first vector. *)
Definition dot_loop (v1 v2 : vector) : option R := accumulate (seq 0 (length (elements v1))) (elements v1) (elements v2) 0.
(** BaseVectorOperations.cpp:50-115. *)
Definition dot (v1 v2 : vector) : option R :=
  match type v1, type v2 with
  | FullDouble, FullDouble => dot_loop v1 v2
  | FullDouble, FullFloat => dot_loop v1 v2
  | FullDouble, OtherVector => dot_loop v1 v2
  | FullFloat, FullFloat => dot_loop v1 v2
  | FullFloat, FullDouble => dot_loop v1 v2
  | FullFloat, OtherVector => dot_loop v1 v2
  | OtherVector, FullDouble => dot_loop v2 v1
  | OtherVector, FullFloat => dot_loop v2 v1
  | OtherVector, OtherVector => dot_loop v1 v2
  end.
