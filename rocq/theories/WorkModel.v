(** Model of the complete example workflows: neighbour lookup, prediction from indices and the
    do_* drivers of examples/regress.py, examples/classify.py (univariate and multivariate). *)
From Verif Require Import Base NdModel RSum LinAlgModel GPModel NoiseModel MuyGPSModel TensorModel FlowModel
  NeighborsModel MultiModel DriverModel ClassifyModel.
Local Open Scope R_scope.

(** A feature array as NN_Wrapper sees it (neighbors.py:83-86, 241-242): rows of an (n, f) matrix or the
    entries of an n-vector. *)
Definition rows_of (t : nd R) : data :=
  match shape t with
  | [n] => D1 (map (fun i => at_ t [i]) (seq 0 n))
  | [n; f] => D2 (map (fun i => map (fun j => at_ t [i; j]) (seq 0 f)) (seq 0 n))
  | _ => DOther
  end.

(** The index rows returned by a lookup as an (m, k) integer array. *)
Definition index_array (k : nat) (rows : list (list nat)) : nd Z :=
  mkNd [List.length rows; k] (fun idx =>
    match idx with [x; j] => Z.of_nat (nth j (nth x rows []) O) | _ => 0%Z end).

(** t.shape[0]. *)
Definition row_count (t : nd R) : result nat :=
  match shape t with n :: _ => Ok n | [] => Err IndexError end.

Section Work.
Variable ls : lsolver.
Variable knn : dict nnval -> list point -> point -> nat -> list (nat * R).
Variable hnsw : nnval -> list point -> point -> nat -> list (nat * R).

(** from_indices.py:76-90 [regress_from_indices] for a univariate model: the tensors are built
    once, the mean is evaluated before the variance. *)
Definition regress_from_indices (m : mmodel) (indices nn_indices : nd Z) (test train targets : nd R)
  : result (nd R * nd R) :=
  let! cw := crosswise_tensor test train indices nn_indices in
  let! pw := pairwise_tensor train nn_indices in
  let! T := take targets nn_indices in
  let! Kin := mm_kernel m pw in
  let! Kcross := mm_kernel m cw in
  let! mean := gp_posterior_mean ls (mm_gp m) Kin Kcross T None in
  let! var := gp_posterior_variance ls (mm_gp m) Kin Kcross in
  Ok (mean, var).

(** The same for a multivariate model: no kernel is applied to the difference tensors
    (from_indices.py:32-34); an empty model list raises IndexError (multivariate_muygps.py:439). *)
Definition mm_regress_from_indices (ms : list mmodel) (indices nn_indices : nd Z) (test train targets : nd R)
  : result (nd R * nd R) :=
  match ms with
  | [] => Err IndexError
  | _ =>
    let! cw := crosswise_tensor test train indices nn_indices in
    let! pw := pairwise_tensor train nn_indices in
    let! T := take targets nn_indices in
    let! mean := mm_posterior_mean ls ms pw cw T in
    let! var := mm_posterior_variance ls ms pw cw in
    Ok (mean, var)
  end.

Definition made_regress_from_indices (m : made mmodel) :=
  match m with Univariate m => regress_from_indices m | Multivariate ms => mm_regress_from_indices ms end.

(** regress.py:602-662 [regress_any]; the timing dictionary is not modelled. *)
Definition regress_any (m : made mmodel) (test train : nd R) (w : nn_wrapper) (targets : nd R)
  : result (nd R * nd R) :=
  let! test_count := row_count test in
  let! r := get_nns knn hnsw w (rows_of test) in
  made_regress_from_indices m (arange test_count) (index_array (nn_count w) (fst r)) test train targets.

(** from_indices.py:38-56 [posterior_mean_from_indices] for either kind of model. *)
Definition made_mean_from_indices (m : made mmodel) (indices nn_indices : nd Z) (test train targets : nd R)
  : result (nd R) :=
  match m with
  | Univariate m => posterior_mean_from_indices ls (mm_gp m) (mm_kernel m) indices nn_indices test train targets
  | Multivariate [] => Err IndexError
  | Multivariate ms =>
    let! cw := crosswise_tensor test train indices nn_indices in
    let! pw := pairwise_tensor train nn_indices in
    let! T := take targets nn_indices in
    mm_posterior_mean ls ms pw cw T
  end.

(** classify.py:537-607 [classify_any] together with its neighbour query. *)
Definition work_classify_any (m : made mmodel) (test train : nd R) (w : nn_wrapper) (labels : nd R)
  : result (nd R) :=
  let! r := get_nns knn hnsw w (rows_of test) in
  classify_any (fun ix nn => made_mean_from_indices m ix nn test train labels) labels
    (index_array (nn_count w) (fst r)).

(** ** The drivers *)
Section Do.
Variable spec : Type.
Variable make : spec -> result mmodel.
Variable fixed : mmodel -> result bool.
(** Batch sampling and the train tensors, the optimizer and scale optimization may depend on the
    lookup (they receive its batches). *)
Variable batch : nn_wrapper -> result unit.
Variable opt : nn_wrapper -> option nat -> mmodel -> result mmodel.
Variable scale : nn_wrapper -> mmodel -> result mmodel.
Variable mscale : nn_wrapper -> list mmodel -> result (list mmodel).

(** regress.py:459-599 [do_regress]: make the model and its lookup, then predict with both. *)
Definition do_regress (hnswlib_enabled : bool) (test train targets : nd R) (nn_count : nat) (method : string)
  (nn_kw : dict nnval) (k : kwargs spec) : result (made mmodel * nn_wrapper * (nd R * nd R)) :=
  let lookup := nn_init hnswlib_enabled (rows_of train) nn_count method nn_kw in
  let! m := decide_and_make_regressor spec mmodel make fixed (rmap (fun _ => tt) lookup)
              (let! w := lookup in batch w) (fun i m => let! w := lookup in opt w i m)
              (fun m => let! w := lookup in scale w m) (fun ms => let! w := lookup in mscale w ms)
              (shape targets) k in
  let! w := lookup in
  let! p := regress_any m test train w targets in
  Ok (m, w, p).

(** classify.py:401-534 [do_classify]. *)
Definition do_classify (hnswlib_enabled : bool) (test train labels : nd R) (nn_count : nat) (method : string)
  (nn_kw : dict nnval) (k : kwargs spec) : result (made mmodel * nn_wrapper * nd R) :=
  let lookup := nn_init hnswlib_enabled (rows_of train) nn_count method nn_kw in
  let! m := decide_and_make_classifier spec mmodel make fixed (rmap (fun _ => tt) lookup)
              (let! w := lookup in batch w) (fun i m => let! w := lookup in opt w i m)
              (fun ms => let! w := lookup in mscale w ms) (shape labels) k in
  let! w := lookup in
  let! p := work_classify_any m test train w labels in
  Ok (m, w, p).
End Do.
End Work.
