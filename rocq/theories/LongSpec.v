(** Specification vocabulary for C120: precision-weighted averages. *)
From Verif Require Import Base NdModel RSum NoiseModel GPSpec.
Local Open Scope R_scope.

(** Sum of the precisions 1 / noise of the first [n] neighbours of row [x], and of the precision-weighted responses [y]. *)
Definition precision (m : noise_model) (x n : nat) : R := rsum n (fun j => / noise_at m None x j).
Definition weighted (m : noise_model) (x n : nat) (y : nat -> R) : R := rsum n (fun j => y j / noise_at m None x j).
