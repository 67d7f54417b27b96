(** Vocabulary for a body loaded on its boundary (C98). *)

From Coq Require Import Reals List Arith Permutation.
From Coq Require Import List.
From Verif Require Import GridGeoModel ShapeModel LinAlg BarycentricModel MappingSpec TensorSpec PatchSpec.
From Verif Require TractionModel.
Import ListNotations.
Open Scope R_scope.

(** The nodes of a surface element while going round it, and its faces, listed from each node p as in [PatchSpec.link]. *)
Definition outline (e : element) : list nat :=
  (match e with
  | Triangle_Linear => [0; 1; 2]
  | Triangle_Quadratic => [0; 3; 1; 4; 2; 5]
  | Quad_Linear => [0; 1; 2; 3]
  | Quad_Quadratic => [0; 4; 1; 5; 2; 6; 3; 7]
  | _ => []
  end)%nat.
Definition surface_corner (e : element) (a : nat) : bool :=
  match e with Triangle_Linear | Triangle_Quadratic => Nat.ltb a 3 | _ => Nat.ltb a 4 end.
Definition outline_from (e : element) (a : nat) : list (list nat) :=
  flat_map (fun i => if Nat.eqb (nth i (outline e) 0%nat) a then [skipn i (outline e) ++ firstn i (outline e)] else []) (seq 0 (length (outline e))).
Definition surface_link (d : domain) (p : nat) : list (bool * list nat) :=
  flat_map (fun row => flat_map (fun a =>
      if Nat.eqb (nth a row 0%nat) p then map (fun f => (surface_corner (kind d) a, map (fun i => nth i row 0%nat) f)) (outline_from (kind d) a) else [])
    (seq 0 (NumberOfNodes (kind d)))) (connectivity d).

(** The path through x, y, z turns counterclockwise, or goes straight ahead, for someone who looks against n. *)
Definition turns (n x y z : list R) : Prop := exists c, 0 <= c /\ vcross (vminus y x) (vminus z y) = vscale c n.
(** The nodes of a straight quadratic face: the points a + u b + v c, at the places of the reference element. *)
Definition straight_face (e : element) (nodes : list (list R)) : Prop :=
  exists a b c, length a = 3%nat /\ length b = 3%nat /\ length c = 3%nat /\
    nodes = map (fun xi => vadd a (vadd (vscale (nth 0 xi 0) b) (vscale (nth 1 xi 0) c))) (canonical_nodes e).
(** A plane, convex face with the unit normal n. *)
Definition facing (e : element) (nodes : list (list R)) (n : list R) : Prop :=
  let x i := nth i nodes [] in
  match e with
  | Triangle_Linear => turns n (x 0%nat) (x 1%nat) (x 2%nat)
  | Quad_Linear => turns n (x 0%nat) (x 1%nat) (x 2%nat) /\ turns n (x 1%nat) (x 2%nat) (x 3%nat) /\ turns n (x 2%nat) (x 3%nat) (x 0%nat) /\ turns n (x 3%nat) (x 0%nat) (x 1%nat)
  | Triangle_Quadratic | Quad_Quadratic => straight_face e nodes /\ turns n (x 0%nat) (x 1%nat) (x 2%nat)
  | _ => False
  end.

(** A traction on a plane part of the boundary of the body d, with the normal n; [pull] gives the traction for a normal. *)
Definition loads_part (d : domain) (pull : list R -> list R) (c : TractionModel.config) : Prop :=
  let s := TractionModel.surface c in
  dim s = 3%nat /\ positions s = positions d /\ well_formed s /\ CanonicalDimension (kind s) = 2%nat /\
  exists n, length n = 3%nat /\ vdot n n = 1 /\ TractionModel.traction c = pull n /\
    forall row, In row (connectivity s) -> facing (kind s) (nodes_of_element s row) n.
(** The state of the component once the traction is applied in full: at once if the slope is zero, otherwise after some steps. *)
Definition fully_applied (c : TractionModel.config) (st : TractionModel.state) : Prop :=
  exists events, TractionModel.run_events c events = Some st /\
    (- EPSILON < TractionModel.slope c < EPSILON \/ (EPSILON <= TractionModel.slope c /\ TractionModel.current_traction st = TractionModel.traction c)).

(** Forces of the body, then of the loads, added to f. *)
Definition add_loads (states : list TractionModel.state) (f : option (list (list R))) : option (list (list R)) :=
  fold_left (fun f st => match f with Some f => TractionModel.addForce st f | None => None end) states f.
(** The stress times a vector. *)
Definition traction_of (s : R) (P : nat -> nat -> R) (n : list R) : list R := map (fun c => s * (P c 0%nat * nth 0 n 0 + P c 1%nat * nth 1 n 0 + P c 2%nat * nth 2 n 0)) [0%nat; 1%nat; 2%nat].

(** The faces of the body around p are those of the loads, faces on which the stress P exerts no force, and faces covered
    by another element. *)
Definition held (d : domain) (P : nat -> nat -> R) (surfaces : list domain) (p : nat) : Prop :=
  exists free covered, Permutation (link d p) (flat_map (fun s => surface_link s p) surfaces ++ free ++ covered) /\ paired covered /\
    Forall (fun f => forall c, (c < 3)%nat -> sum3 (fun k => P c k * nth k (share (site d) f) 0) = 0) free.
