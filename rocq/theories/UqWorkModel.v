(** Model of the complete uncertainty-quantification workflow: examples/two_class_classify_uq.py with its neighbour
    query, regressions, batch and cutoffs. *)
From Verif Require Import Base NdModel RSum LinAlgModel GPModel NoiseModel MuyGPSModel TensorModel FlowModel
  NeighborsModel MultiModel DriverModel ClassifyModel WorkModel.
Local Open Scope R_scope.

(** two_class_classify_uq.py:212 [2 * np.argmax(train_labels, axis=1) - 1]. *)
Definition sign_labels (labels : nd R) : result (list R) :=
  match shape labels with
  | [N; S c] => Ok (map (fun i => 2 * INR (np_argmax c (fun j => at_ labels [i; j])) - 1) (seq 0 N))
  | _ => Err ValueError
  end.

(** two_class_classify_uq.py:208-210: mid_value from the first label row (IndexError without rows or with one axis,
    ValueError without columns). *)
Definition mid_label (labels : nd R) : result R :=
  match shape labels with
  | [S _; S c] => Ok ((np_min c (fun j => at_ labels [O; j]) + np_max c (fun j => at_ labels [O; j])) / 2)
  | [S _; O] => Err ValueError
  | _ => Err IndexError
  end.

Section Uq.
Variable ls : lsolver.
Variable knn : dict nnval -> list point -> point -> nat -> list (nat * R).
Variable hnsw : nnval -> list point -> point -> nat -> list (nat * R).

(** two_class_classify_uq.py:346-423 [classify_two_class_uq] with its neighbour query; features with other than two
    axes fail to unpack (line 383). *)
Definition work_classify_uq (m : mmodel) (test train : nd R) (w : nn_wrapper) (labels : nd R) : result (nd R * nd R) :=
  match shape test with
  | [_; _] =>
    let! r := get_nns knn hnsw w (rows_of test) in
    ClassifyModel.classify_two_class_uq (fun ix nn => regress_from_indices ls m ix nn test train labels) labels
      (index_array (nn_count w) (fst r))
  | _ => Err ValueError
  end.

(** two_class_classify_uq.py:426-523 [train_two_class_interval]: regress the batch rows, compare the predicted sign labels
    with [signs], train the cutoffs ([mean[:, 1]] needs two columns). *)
Definition two_class_interval (m : mmodel) (idx : list nat) (nns : list (list nat)) (k : nat) (train labels : nd R)
  (signs : list R) (objectives : list ((nat -> num) -> (nat -> num) -> nat -> nat -> Z)) : result (list R) :=
  let! mv := regress_from_indices ls m (index_vector idx) (index_array k nns) train train labels in
  match shape (fst mv) with
  | [b; S (S c)] =>
    let predicted x := 2 * INR (np_argmax (S c) (fun j => at_ (fst mv) [x; j])) - 1 in
    train_cutoffs (map (fun x => at_ (fst mv) [x; 1%nat]) (seq 0 b)) (map (fun x => at_ (snd mv) [x]) (seq 0 b))
      (map (fun x => Reqb (predicted x) (nth (nth x idx O) signs 0)) (seq 0 b)) objectives
  | [_; S O] => Err IndexError
  | _ => Err ValueError
  end.

Section Do.
Variable spec : Type.
Variable make : spec -> result mmodel.
Variable fixed : mmodel -> result bool.
Variable batch : nn_wrapper -> result unit.
Variable opt : nn_wrapper -> option nat -> mmodel -> result mmodel.

(** two_class_classify_uq.py:63-248 [do_classify_uq]; [draw] is what np.random.choice returned for the calibration
    batch.  Timing and printing are not modelled. *)
Definition do_classify_uq (hnswlib_enabled : bool) (test train labels : nd R) (nn_count uq_batch_count : nat) (method : string)
  (nn_kw : dict nnval) (k : spec) (objectives : list ((nat -> num) -> (nat -> num) -> nat -> nat -> Z))
  (draw : nat -> list nat -> nat -> list nat) : result (mmodel * nn_wrapper * nd R * list (list bool)) :=
  let lookup := nn_init hnswlib_enabled (rows_of train) nn_count method nn_kw in
  let! m := make_classifier spec mmodel make fixed (rmap (fun _ => tt) lookup) (let! w := lookup in batch w)
              (fun i m => let! w := lookup in opt w i m) k in
  let! w := lookup in
  let! pv := work_classify_uq m test train w labels in
  let! mid := mid_label labels in
  let! signs := sign_labels labels in
  let! b := get_balanced_batch knn hnsw w signs uq_batch_count draw in
  let! cuts := two_class_interval m (fst b) (snd b) nn_count train labels signs objectives in
  let! masks := make_masks (fst pv) cuts (snd pv) mid in
  Ok (m, w, fst pv, masks).
End Do.
End Uq.
