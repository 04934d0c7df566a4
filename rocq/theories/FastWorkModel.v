(** Model of the complete fast-prediction workflow: examples/fast_posterior_mean.py with its neighbour queries. *)
From Verif Require Import Base NdModel RSum LinAlgModel GPModel NoiseModel MuyGPSModel TensorModel FlowModel
  NeighborsModel MultiModel DriverModel WorkModel.
Local Open Scope R_scope.

Section Fast.
Variable ls : lsolver.
Variable knn : dict nnval -> list point -> point -> nat -> list (nat * R).
Variable hnsw : nnval -> list point -> point -> nat -> list (nat * R).

(** fast_posterior_mean.py:90-135 [make_fast_multivariate_regressor] after its neighbour query: differences first, then
    targets; [models[0]] of an empty model raises IndexError (line 128). *)
Definition fast_multivariate_from (ms : list mmodel) (nn_indices : nd Z) (train targets : nd R) : result (nd R) :=
  match ms with
  | [] => Err IndexError
  | _ =>
    let! pw := pairwise_tensor train nn_indices in
    let! T := take targets nn_indices in
    mm_fast_coefficients ls ms pw T
  end.

(** fast_posterior_mean.py:138-161 [_decide_and_make_fast_regressor] with the bodies of lines 39-87 and 90-135: train features with
    other than two axes fail to unpack (lines 72, 122). *)
Definition make_fast (m : made mmodel) (w : nn_wrapper) (train targets : nd R) : result (nd R * nd Z) :=
  match shape train with
  | [train_count; _] =>
    let! r := get_batch_nns knn hnsw w (seq 0 train_count) in
    let nn_indices := fast_nn_update (index_array (nn_count w) (fst r)) in
    let! coeffs := match m with
      | Univariate m => fast_coefficients_from ls (mm_gp m) (mm_kernel m) nn_indices train targets
      | Multivariate ms => fast_multivariate_from ms nn_indices train targets
      end in
    Ok (coeffs, nn_indices)
  | _ => Err ValueError
  end.

(** from_indices.py:93-123 [fast_posterior_mean_from_indices]. *)
Definition made_fast_mean_from_indices (m : made mmodel) (indices nn_indices : nd Z) (test train : nd R) (closest : nd Z)
  (coeffs : nd R) : result (nd R) :=
  match m with
  | Univariate m => fast_posterior_mean_from_indices (mm_kernel m) indices nn_indices test train closest coeffs
  | Multivariate [] => Err IndexError
  | Multivariate ms =>
    let! cw := crosswise_tensor test train indices nn_indices in
    let! c := take coeffs closest in
    mm_fast_mean ms cw c
  end.

(** fast_posterior_mean.py:317-400 [fast_posterior_mean_any]: the index matrix is updated a second time (line 373).  The result is the
    posterior mean and the coefficients; timings are not modelled. *)
Definition work_fast_any (m : made mmodel) (test train : nd R) (w : nn_wrapper) (targets : nd R) : result (nd R * nd R) :=
  let! cn := make_fast m w train targets in
  let nn_indices := fast_nn_update (snd cn) in
  let! r := get_nns knn hnsw w (rows_of test) in
  let! closest := first_column (index_array (nn_count w) (fst r)) in
  let! closest_set := take nn_indices closest in
  match shape test with
  | [test_count; _] =>
    let! mean := made_fast_mean_from_indices m (arange test_count) closest_set test train closest (fst cn) in
    Ok (mean, fst cn)
  | _ => Err ValueError
  end.

(** The same queries with the single update of gp/tensors.py:52-131, as a user composes make_fast_predict_tensors, fast_nn_update and
    fast_posterior_mean_from_indices ([manual_fast_workflow]). *)
Definition work_fast_manual (m : mmodel) (test train : nd R) (w : nn_wrapper) (targets : nd R) : result (nd R) :=
  let! train_count := row_count train in
  let! r := get_batch_nns knn hnsw w (seq 0 train_count) in
  let! t := get_nns knn hnsw w (rows_of test) in
  let nn := index_array (nn_count w) (fst r) in
  manual_fast_workflow ls (mm_gp m) (mm_kernel m) nn (fast_nn_update nn) (index_array (nn_count w) (fst t)) test train targets.

Section Do.
Variable spec : Type.
Variable make : spec -> result mmodel.
Variable fixed : mmodel -> result bool.
Variable batch : nn_wrapper -> result unit.
Variable opt : nn_wrapper -> option nat -> mmodel -> result mmodel.
Variable scale : nn_wrapper -> mmodel -> result mmodel.
Variable mscale : nn_wrapper -> list mmodel -> result (list mmodel).

(** fast_posterior_mean.py:164-314 [do_fast_posterior_mean]. *)
Definition do_fast_posterior_mean (hnswlib_enabled : bool) (test train targets : nd R) (nn_count : nat) (method : string)
  (nn_kw : dict nnval) (k : kwargs spec) : result (made mmodel * nn_wrapper * nd R * nd R) :=
  let lookup := nn_init hnswlib_enabled (rows_of train) nn_count method nn_kw in
  let! m := decide_and_make_regressor spec mmodel make fixed (rmap (fun _ => tt) lookup)
              (let! w := lookup in batch w) (fun i m => let! w := lookup in opt w i m)
              (fun m => let! w := lookup in scale w m) (fun ms => let! w := lookup in mscale w ms)
              (shape targets) k in
  let! w := lookup in
  let! p := work_fast_any m test train w targets in
  Ok (m, w, fst p, snd p).
End Do.
End Fast.
