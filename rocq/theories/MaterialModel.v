(** Hyperelastic materials: /repo/src/SofaCaribou/Material/NeoHookeanMaterial.h and SaintVenantKirchhoffMaterial.h.
    Simplification: exact reals; [ln] is the natural logarithm on positive numbers (std::log of a number that is not
    positive is not a number; every theorem that needs it assumes J > 0). *)

From Coq Require Import Reals List.
From Verif Require Import GridGeoModel ShapeModel LinAlg TensorModel.
Import ListNotations.
Open Scope R_scope.

(** Eigen: Identity(), A + B, A - B, s * A, A.trace() on 3x3 matrices. *)
Definition Id3 : list (list R) := [ [1; 0; 0]; [0; 1; 0]; [0; 0; 1] ].
Definition madd (A B : list (list R)) : list (list R) := map2 vadd A B.
Definition msub (A B : list (list R)) : list (list R) := map2 vminus A B.
Definition mscale (s : R) (A : list (list R)) : list (list R) := map (vscale s) A.
Definition trace (A : list (list R)) : R := e A 0 0 + e A 1 1 + e A 2 2.

Inductive law := NeoHookean | SaintVenantKirchhoff.

(** A material: its law and its members mu and l (here lambda). *)
Record material := { kind_of : law; mu : R; lambda : R }.

(** NeoHookeanMaterial.h:33-38, SaintVenantKirchhoffMaterial.h:32-36 *)
Definition before_update (k : law) (young_modulus poisson_ratio : R) : material :=
  {| kind_of := k;
     mu := young_modulus / (2 * (1 + poisson_ratio));
     lambda := young_modulus * poisson_ratio / ((1 + poisson_ratio) * (1 - 2 * poisson_ratio)) |}.

(** SaintVenantKirchhoffMaterial.h:38-46: the member C after before_update. *)
Definition elasticity_matrix (m : material) : list (list R) :=
  [ [ lambda m + 2 * mu m; lambda m; lambda m; 0; 0; 0 ];
    [ lambda m; lambda m + 2 * mu m; lambda m; 0; 0; 0 ];
    [ lambda m; lambda m; lambda m + 2 * mu m; 0; 0; 0 ];
    [ 0; 0; 0; mu m; 0; 0 ];
    [ 0; 0; 0; 0; mu m; 0 ];
    [ 0; 0; 0; 0; 0; mu m ] ].

(** NeoHookeanMaterial.h:46-50, SaintVenantKirchhoffMaterial.h:55-62 *)
Definition strain_energy_density (m : material) (J : R) (C : list (list R)) : R :=
  match kind_of m with
  | NeoHookean =>
      let lnJ := ln J in
      mu m / 2 * (trace C - 3) - mu m * lnJ + lambda m / 2 * lnJ * lnJ
  | SaintVenantKirchhoff =>
      let E := mscale (1 / 2) (msub C Id3) in
      let trE := trace E in
      let trEE := trace (matmul 3 E E) in
      lambda m / 2 * (trE * trE) + mu m * trEE
  end.

(** NeoHookeanMaterial.h:53-60, SaintVenantKirchhoffMaterial.h:65-70 *)
Definition PK2_stress (m : material) (J : R) (C : list (list R)) : list (list R) :=
  match kind_of m with
  | NeoHookean =>
      let Ci := inverse C in
      madd (mscale (mu m) (msub Id3 Ci)) (mscale (lambda m * ln J) Ci)
  | SaintVenantKirchhoff =>
      let E := mscale (1 / 2) (msub C Id3) in
      madd (mscale (lambda m * trace E) Id3) (mscale (2 * mu m) E)
  end.

(** NeoHookeanMaterial.h:63-72, SaintVenantKirchhoffMaterial.h:73-76 *)
Definition PK2_stress_jacobian (m : material) (J : R) (C : list (list R)) : list (list R) :=
  match kind_of m with
  | NeoHookean =>
      let Ci := inverse C in
      madd (mscale (lambda m) (symmetric_dyad_1 Ci)) (mscale (2 * (mu m - lambda m * ln J)) (symmetric_dyad_2 Ci))
  | SaintVenantKirchhoff => elasticity_matrix m
  end.
