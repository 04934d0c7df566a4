(** Specification vocabulary for C127. *)
From Verif Require Import Base NdModel.
Local Open Scope R_scope.

(** The responses measured from another origin: the constant [c] is added to each. *)
Definition shifted (targets : nd R) (c : R) : nd R := mkNd (shape targets) (fun idx => at_ targets idx + c).
