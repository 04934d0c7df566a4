(** Specification vocabulary for multivariate models. *)
From Verif Require Import Base NdModel LinAlgModel GPModel MuyGPSModel MultiModel.
Local Open Scope R_scope.

(** Response [i] of a (batch, nn, response) target tensor as a (batch, nn, 1) tensor. *)
Definition response_column (T : nd R) (i : nat) : nd R :=
  mkNd (firstn 2 (shape T) ++ [1%nat])
    (fun idx => match idx with [x; j; _] => at_ T [x; j; i] | _ => 0 end).

(** The x-th element of an array in row-major order. *)
Definition entry {A} (t : nd A) (x : nat) : A := at_ t (unravel (shape t) x).

(** What a user obtains from the i-th univariate model on the i-th target column. *)
Definition univariate_mean (ls : lsolver) (m : mmodel) (pairwise crosswise T : nd R) (i : nat)
  : result (nd R) :=
  let! Kin := mm_kernel m pairwise in
  let! Kcross := mm_kernel m crosswise in
  gp_posterior_mean ls (mm_gp m) Kin Kcross (response_column T i) None.

Definition univariate_variance (ls : lsolver) (g : gp) (m : mmodel) (pairwise crosswise : nd R)
  : result (nd R) :=
  let! Kin := mm_kernel m pairwise in
  let! Kcross := mm_kernel m crosswise in
  gp_posterior_variance ls g Kin Kcross.

Definition univariate_scale (ls : lsolver) (draws : nat -> list nat) (m : mmodel)
  (pairwise T : nd R) (i : nat) : result gp :=
  let! Kin := mm_kernel m pairwise in
  optimize_scale ls (mm_gp m) draws Kin (response_column T i).

Definition univariate_coefficients (ls : lsolver) (m : mmodel) (pairwise T : nd R) (i : nat)
  : result (nd R) :=
  let! Kin := mm_kernel m pairwise in
  gp_fast_coefficients ls (mm_gp m) Kin (response_column T i).
