(** Model of examples/fast_posterior_mean.py and examples/from_indices.py (univariate models):
    the convenience workflows that build tensors from indices and predict. *)
From Verif Require Import Base NdModel RSum LinAlgModel GPModel NoiseModel MuyGPSModel TensorModel.
Local Open Scope R_scope.

(** np.arange(0, n). *)
Definition arange (n : nat) : nd Z := mkNd [n] (fun idx => match idx with [i] => Z.of_nat i | _ => 0%Z end).

(** t[:, 0]: IndexError when there is no column. *)
Definition first_column (t : nd Z) : result (nd Z) :=
  match shape t with
  | [n; O] => Err IndexError
  | [n; _] => Ok (mkNd [n] (fun idx => at_ t (idx ++ [O])))
  | _ => Err IndexError
  end.

(** from_indices.py:18-35, 38-52 [tensors_from_indices], [posterior_mean_from_indices] with
    MuyGPS.make_predict_tensors (gp/muygps.py:405-475; crosswise, pairwise, targets). *)
Definition posterior_mean_from_indices (ls : lsolver) (g : gp) (kern : nd R -> result (nd R))
  (indices nn_indices : nd Z) (test train targets : nd R) : result (nd R) :=
  let! cw := crosswise_tensor test train indices nn_indices in
  let! pw := pairwise_tensor train nn_indices in
  let! T := take targets nn_indices in
  let! Kin := kern pw in
  let! Kcross := kern cw in
  gp_posterior_mean ls g Kin Kcross T None.

(** from_indices.py:59-73 [posterior_variance_from_indices]. *)
Definition posterior_variance_from_indices (ls : lsolver) (g : gp) (kern : nd R -> result (nd R))
  (indices nn_indices : nd Z) (test train targets : nd R) : result (nd R) :=
  let! cw := crosswise_tensor test train indices nn_indices in
  let! pw := pairwise_tensor train nn_indices in
  let! T := take targets nn_indices in
  let! Kin := kern pw in
  let! Kcross := kern cw in
  gp_posterior_variance ls g Kin Kcross.

(** fast_posterior_mean.py:78-87: coefficients from a (train, nn) index matrix. *)
Definition fast_coefficients_from (ls : lsolver) (g : gp) (kern : nd R -> result (nd R))
  (nn_indices : nd Z) (train targets : nd R) : result (nd R) :=
  let! T := take targets nn_indices in
  let! pw := pairwise_tensor train nn_indices in
  let! Kin := kern pw in
  gp_fast_coefficients ls g Kin T.

(** fast_posterior_mean.py:39-87 [make_fast_regressor]; [nn] is what
    nbrs_lookup.get_batch_nns(arange(train_count)) returned. *)
Definition make_fast_regressor (ls : lsolver) (g : gp) (kern : nd R -> result (nd R))
  (nn : nd Z) (train targets : nd R) : result (nd R * nd Z) :=
  let nn_indices := fast_nn_update nn in
  let! coeffs := fast_coefficients_from ls g kern nn_indices train targets in
  Ok (coeffs, nn_indices).

(** from_indices.py:93-123 [fast_posterior_mean_from_indices], univariate branch. *)
Definition fast_posterior_mean_from_indices (kern : nd R -> result (nd R)) (indices nn_indices : nd Z)
  (test train : nd R) (closest : nd Z) (coeffs : nd R) : result (nd R) :=
  let! cw := crosswise_tensor test train indices nn_indices in
  let! Kcross := kern cw in
  let! c := take coeffs closest in
  gp_fast_posterior_mean Kcross c.

(** fast_posterior_mean.py:317-400 [fast_posterior_mean_any] for a univariate model; [test_nn]
    is what nbrs_lookup.get_nns(test_features) returned.  The index matrix returned by
    make_fast_regressor is updated a second time (line 373). *)
Definition fast_posterior_mean_any (ls : lsolver) (g : gp) (kern : nd R -> result (nd R))
  (nn test_nn : nd Z) (test train targets : nd R) : result (nd R) :=
  let! (coeffs, nn1) := make_fast_regressor ls g kern nn train targets in
  let nn_indices := fast_nn_update nn1 in
  let! closest := first_column test_nn in
  let! closest_set := take nn_indices closest in
  match shape test with
  | [test_count; _] =>
    fast_posterior_mean_from_indices kern (arange test_count) closest_set test train closest coeffs
  | _ => Err ValueError
  end.

(** The same workflow assembled by a user from gp/tensors.py: coefficients from
    make_fast_predict_tensors on the index matrix [nn_coef], prediction from the closest rows of
    [nn_pred].  The docstring of fast_nn_update (gp/tensors.py:62-78) passes the *updated*
    matrix to both. *)
Definition manual_fast_workflow (ls : lsolver) (g : gp) (kern : nd R -> result (nd R))
  (nn_coef nn_pred test_nn : nd Z) (test train targets : nd R) : result (nd R) :=
  let! (pw, T) := make_fast_predict_tensors nn_coef train targets in
  let! Kin := kern pw in
  let! coeffs := gp_fast_coefficients ls g Kin T in
  let! closest := first_column test_nn in
  let! closest_set := take nn_pred closest in
  match shape test with
  | test_count :: _ =>
    fast_posterior_mean_from_indices kern (arange test_count) closest_set test train closest coeffs
  | [] => Err IndexError
  end.
