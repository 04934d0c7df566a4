(** Model of training a classifier from data: make_classifier (examples/classify.py) with its real batch, tensors and
    optimizer, and do_classify with the trained model. *)
From Verif Require Import Base NdModel RSum LinAlgModel GPModel NoiseModel MuyGPSModel HyperModel NamedModel
  TensorModel KernelModel LossModel ChassisModel MultiModel DriverModel NeighborsModel ClassifyModel WorkModel TrainModel.
Local Open Scope R_scope.

(** classify.py:145 [np.argmax(train_labels, axis=1)]; other than two axes, or no columns, raise ValueError. *)
Definition argmax_labels (labels : nd R) : result (list R) :=
  match shape labels with
  | [N; S c] => Ok (map (fun i => INR (np_argmax c (fun j => at_ labels [i; j]))) (seq 0 N))
  | _ => Err ValueError
  end.

Section Train.
Variable ls : lsolver.
Variable slogdet : nat -> mat -> R * R.
Variable eps : R.
Variables (gamma : R -> R) (kv : R -> R -> R).
Variable opt : store -> full -> (dict R -> result R) -> result (store * full).
Variable knn : dict nnval -> list point -> point -> nat -> list (nat * R).
Variable hnsw : nnval -> list point -> point -> nat -> list (nat * R).

(** examples/classify.py:36-182 [make_classifier] (body 126-182) with the model [F] that MuyGPS(k_kwargs) constructed; [draw]
    is what np.random.choice returned for each class, [draws] what a down-sampling scale draws during optimization.
    There is no scale optimization.  Timing and printing are not modelled. *)
Definition train_classifier (hnswlib_enabled : bool) (train labels : nd R) (nn_count batch_count : nat)
  (method : string) (nn_kw : dict nnval) (draw : nat -> list nat -> nat -> list nat) (s : store) (F : full) (l : loss)
  (draws : nat -> list nat) : result (store * full * nn_wrapper) :=
  let! w := nn_init hnswlib_enabled (rows_of train) nn_count method nn_kw in
  let! fixed := model_fixed s (f_attr F) in
  if fixed then Ok (s, F, w)
  else
    let! classes := argmax_labels labels in
    let! b := get_balanced_batch knn hnsw w classes batch_count draw in
    let! t := full_train_tensors F (index_vector (fst b)) (index_array nn_count (snd b)) train labels in
    let! r := optimize_call ls slogdet eps gamma kv opt s F l [] None draws t in
    Ok (fst r, snd r, w).

(** examples/classify.py:401-534 [do_classify] for a univariate model: train, then classify with the trained model and its
    lookup. *)
Definition train_and_classify (hnswlib_enabled : bool) (test train labels : nd R) (nn_count batch_count : nat)
  (method : string) (nn_kw : dict nnval) (draw : nat -> list nat -> nat -> list nat) (s : store) (F : full) (l : loss)
  (draws : nat -> list nat) : result (store * full * nn_wrapper * nd R) :=
  let! r := train_classifier hnswlib_enabled train labels nn_count batch_count method nn_kw draw s F l draws in
  let '(s', F', w) := r in
  let! p := work_classify_any ls knn hnsw (Univariate (full_mm gamma kv s' F')) test train w labels in
  Ok (s', F', w, p).
End Train.
