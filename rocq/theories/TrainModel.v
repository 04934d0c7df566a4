(** Model of training from data: MuyGPS.make_train_tensors, optimize_from_indices (examples/from_indices.py) and
    make_regressor (examples/regress.py) with its real batch, tensors, optimizer and scale optimization. *)
From Verif Require Import Base NdModel RSum LinAlgModel GPModel NoiseModel MuyGPSModel HyperModel NamedModel
  TensorModel KernelModel LossModel ChassisModel MultiModel DriverModel NeighborsModel ClassifyModel WorkModel.
Local Open Scope R_scope.

(** muygps.kernel.deformation (gp/kernels/kernel_fn.py:61-74) of a model with a scalar or vector length scale.
    Simplification: hierarchical length scales are modelled separately (HierModel). *)
Definition full_deformation (F : full) : option deformation :=
  match k_ls (m_kernel (f_attr F)) with
  | LSScalar n => Some (Iso (f_metric F) n)
  | LSVector v => Some (Aniso (f_metric F) v)
  | LSHier _ => None
  end.

(** The tuple returned by make_train_tensors. *)
Record train_tensors := mkTrain {
  tr_cross : nd R;
  tr_pair : nd R;
  tr_targets : nd R;
  tr_nn_targets : nd R
}.

(** gp/muygps.py:533-551 [make_train_tensors], single process. *)
Definition full_train_tensors (F : full) (ix nn : nd Z) (train targets : nd R) : result train_tensors :=
  match full_deformation F with
  | None => Err NotImplementedError
  | Some d =>
    let! c := deform_crosswise d train train ix nn in
    let! p := deform_pairwise d train nn in
    let! nt := take targets nn in
    let! t := take targets ix in
    Ok (mkTrain c p t nt)
  end.

Section Train.
Variable ls : lsolver.
Variable slogdet : nat -> mat -> R * R.
Variable eps : R.
Variables (gamma : R -> R) (kv : R -> R -> R).
(** The optimizer functor's [_fn]: [scipy_optimize minimize] or [bayes_optimize maximize] (ChassisModel). *)
Variable opt : store -> full -> (dict R -> result R) -> result (store * full).

(** optimize/chassis.py:106-117: build the objective from the tensors and hand it to the optimizer. *)
Definition optimize_call (s : store) (F : full) (l : loss) (loss_kw : dict R) (mask : option (list nat))
  (draws : nat -> list nat) (t : train_tensors) : result (store * full) :=
  opt s F (obj_fn ls slogdet eps gamma kv s F l loss_kw mask draws (tr_pair t) (tr_cross t) (tr_nn_targets t) (tr_targets t)).

(** examples/from_indices.py:202-223 [optimize_from_indices]. *)
Definition optimize_from_indices (s : store) (F : full) (l : loss) (loss_kw : dict R) (mask : option (list nat))
  (draws : nat -> list nat) (ix nn : nd Z) (train targets : nd R) : result (store * full) :=
  let! t := full_train_tensors F ix nn train targets in
  optimize_call s F l loss_kw mask draws t.

(** gp/muygps.py:373-403 [optimize_scale] on the whole object: the scale is stored and [_make] runs again. *)
Definition full_optimize_scale (s : store) (F : full) (draws : nat -> list nat) (pairwise nn_targets : nd R) : result full :=
  let! Kin := call_kernel gamma kv s F pairwise [] in
  let! g := optimize_scale ls (gp_attr s F) draws Kin nn_targets in
  Ok (full_make s (mkFull (f_attr F) (f_bound F) (f_metric F) (f_hetero F) (f_kind F) (gp_scale g) (gp_var_scale g))).

Variable knn : dict nnval -> list point -> point -> nat -> list (nat * R).
Variable hnsw : nnval -> list point -> point -> nat -> list (nat * R).

(** examples/regress.py:34-204 [make_regressor] (body 129-204) with the model [F] that MuyGPS(k_kwargs) constructed; [drawn] is
    what np.random.choice returned, [draws], [draws'] what a down-sampling scale draws during and after optimization.
    Timing and printing are not modelled. *)
Definition train_regressor (hnswlib_enabled : bool) (train targets : nd R) (nn_count : nat) (batch_count : nat)
  (method : string) (nn_kw : dict nnval) (drawn : list nat) (s : store) (F : full) (l : loss)
  (draws draws' : nat -> list nat) : result (store * full * nn_wrapper) :=
  let! N := row_count train in
  let! w := nn_init hnswlib_enabled (rows_of train) nn_count method nn_kw in
  let! fixed := model_fixed s (f_attr F) in
  if fixed then Ok (s, F, w)
  else
    let! b := sample_batch knn hnsw w batch_count N drawn in
    let! t := full_train_tensors F (index_vector (fst b)) (index_array nn_count (snd b)) train targets in
    let! r := optimize_call s F l [] None draws t in
    let! F' := full_optimize_scale (fst r) (snd r) draws' (tr_pair t) (tr_nn_targets t) in
    Ok (fst r, F', w).
End Train.

(** A model object applied to raw difference tensors: the isotropic deformation takes its metric when tensors are built
    (gp/muygps.py:440-475 with isotropy.py:91-162), then muygps.kernel is called (from_indices.py:32-35). *)
Definition full_kernel (gamma : R -> R) (kv : R -> R -> R) (s : store) (F : full) (diffs : nd R) : result (nd R) :=
  match full_deformation F with
  | None => Err NotImplementedError
  | Some (Iso m _) => let! x := metric_call m diffs in call_kernel gamma kv s F x []
  | Some _ => call_kernel gamma kv s F diffs []
  end.
Definition full_mm (gamma : R -> R) (kv : R -> R -> R) (s : store) (F : full) : mmodel :=
  mkMm (gp_bound s F) (full_kernel gamma kv s F).

(** examples/regress.py:459-599 [do_regress] for a univariate model: train, then predict with the trained model and its
    lookup. *)
Definition train_and_regress (ls : lsolver) (slogdet : nat -> mat -> R * R) (eps : R) (gamma : R -> R) (kv : R -> R -> R)
  (opt : store -> full -> (dict R -> result R) -> result (store * full))
  (knn : dict nnval -> list point -> point -> nat -> list (nat * R)) (hnsw : nnval -> list point -> point -> nat -> list (nat * R))
  (hnswlib_enabled : bool) (test train targets : nd R) (nn_count batch_count : nat) (method : string) (nn_kw : dict nnval)
  (drawn : list nat) (s : store) (F : full) (l : loss) (draws draws' : nat -> list nat)
  : result (store * full * nn_wrapper * (nd R * nd R)) :=
  let! r := train_regressor ls slogdet eps gamma kv opt knn hnsw hnswlib_enabled train targets nn_count batch_count method
              nn_kw drawn s F l draws draws' in
  let '(s', F', w) := r in
  let! p := regress_any ls knn hnsw (Univariate (full_mm gamma kv s' F')) test train w targets in
  Ok (s', F', w, p).
