(** Model of calibrating the variance scale of a model object on the neighbourhoods of a batch. *)
From Verif Require Import Base NdModel RSum LinAlgModel GPModel NoiseModel MuyGPSModel TensorModel MultiModel.
Local Open Scope R_scope.

(** muygps.optimize_scale(pairwise_diffs, batch_nn_targets) (gp/muygps.py:373-403) on the tensors make_train_tensors builds
    (gp/muygps.py:533-551): pairwise differences of the listed training rows and their responses.  The kernel of the model object
    [m] takes raw differences, as everywhere in MultiModel. *)
Definition optimize_scale_from_indices (ls : lsolver) (m : mmodel) (draws : nat -> list nat) (nn : nd Z) (train targets : nd R)
  : result mmodel :=
  let! p := pairwise_tensor train nn in
  let! Kin := mm_kernel m p in
  let! T := take targets nn in
  let! g := optimize_scale ls (mm_gp m) draws Kin T in
  Ok (mkMm g (mm_kernel m)).
