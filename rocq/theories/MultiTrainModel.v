(** Model of training one model per response from data: make_multivariate_regressor (examples/regress.py) and
    make_multivariate_classifier (examples/classify.py) with their batches, tensors, optimizer and scale optimization. *)
From Verif Require Import Base NdModel RSum LinAlgModel GPModel NoiseModel MuyGPSModel HyperModel NamedModel
  TensorModel KernelModel LossModel ChassisModel MultiModel DriverModel NeighborsModel ClassifyModel WorkModel TrainModel ClassTrainModel.
Local Open Scope R_scope.

(** gp/multivariate_muygps.py:449-506 [make_train_tensors]: the tensors of the first model (IndexError without models). *)
Definition multi_train_tensors (Fs : list full) (ix nn : nd Z) (train targets : nd R) : result train_tensors :=
  match Fs with
  | [] => Err IndexError
  | F :: _ => full_train_tensors F ix nn train targets
  end.

(** regress.py:350-355 (and classify.py:327-332): what the optimizer is given for response [i],
    batch_targets[:, i].reshape(batch_count, 1) and batch_nn_targets[:, :, i].reshape(batch_count, nn_count, 1). *)
Definition response_tensors (t : train_tensors) (nn_count i : nat) : result train_tensors :=
  match shape (tr_targets t), shape (tr_nn_targets t) with
  | [b; r], b' :: _ =>
    if (r <=? i)%nat then Err IndexError
    else
      let! c := column (tr_nn_targets t) i in
      let! c' := reshape c [b'; nn_count; 1%nat] in
      Ok (mkTrain (tr_cross t) (tr_pair t)
            (mkNd [b; 1%nat] (fun idx => match idx with x :: _ => at_ (tr_targets t) [x; i] | [] => 0 end)) c')
  | _, _ => Err IndexError
  end.

Section Multi.
Variable ls : lsolver.
Variable slogdet : nat -> mat -> R * R.
Variable eps : R.
Variables (gamma : R -> R) (kv : R -> R -> R).
Variable opt : store -> full -> (dict R -> result R) -> result (store * full).

(** regress.py:345-363 and classify.py:322-340: the loop over the models; fixed models are left alone.  All models live in one
    store, so their hyperparameter objects may be shared; the optimizer adds new objects for the model it returns. *)
Fixpoint train_each (l : loss) (draws : nat -> nat -> list nat) (nn_count : nat) (t : train_tensors) (i : nat) (s : store) (Fs : list full)
  : result (store * list full) :=
  match Fs with
  | [] => Ok (s, [])
  | F :: Fs' =>
    let! fixed := model_fixed s (f_attr F) in
    let! r := if fixed then Ok (s, F)
              else let! ti := response_tensors t nn_count i in
                   optimize_call ls slogdet eps gamma kv opt s F l [] None (draws i) ti in
    let! rest := train_each l draws nn_count t (S i) (fst r) Fs' in
    Ok (fst rest, snd r :: snd rest)
  end.

(** gp/multivariate_muygps.py:374-382 on the whole objects: only the value of [scale] changes ([_make] does not run). *)
Definition set_scale (F : full) (v : R) : full :=
  mkFull (f_attr F) (f_bound F) (f_metric F) (f_hetero F) (f_kind F) v (f_var_scale F).
Definition model_of (s : store) (F : full) : mmodel :=
  mkMm (gp_attr s F) (fun d => call_kernel gamma kv s F d []).
Fixpoint set_scales (Fs : list full) (ms : list mmodel) : list full :=
  match Fs, ms with
  | F :: Fs', m :: ms' => set_scale F (gp_scale (mm_gp m)) :: set_scales Fs' ms'
  | _, _ => []
  end.

(** gp/multivariate_muygps.py:342-383 [optimize_scale].  Simplification: scale objects are not shared between models. *)
Definition multi_optimize_scale (draws : nat -> nat -> list nat) (s : store) (Fs : list full) (t : train_tensors) : result (list full) :=
  let r := mm_optimize_scale ls draws (map (model_of s) Fs) (tr_pair t) (tr_nn_targets t) in
  let! _ := snd r in Ok (set_scales Fs (fst r)).

Variable knn : dict nnval -> list point -> point -> nat -> list (nat * R).
Variable hnsw : nnval -> list point -> point -> nat -> list (nat * R).

(** examples/regress.py:196-379 [make_multivariate_regressor] (body 305-379) with the models [Fs] that MMuyGPS( *k_args) constructed. *)
Definition train_multivariate_regressor (hnswlib_enabled : bool) (train targets : nd R) (nn_count batch_count : nat)
  (method : string) (nn_kw : dict nnval) (drawn : list nat) (s : store) (Fs : list full) (l : loss)
  (draws draws' : nat -> nat -> list nat) : result (store * list full * nn_wrapper) :=
  match shape targets with
  | [train_count; response_count] =>
    if negb (response_count =? List.length Fs)%nat then Err ValueError
    else
      let! w := nn_init hnswlib_enabled (rows_of train) nn_count method nn_kw in
      let! fixed := all_fixed full (fun F => model_fixed s (f_attr F)) Fs in
      if fixed then Ok (s, Fs, w)
      else
        let! b := sample_batch knn hnsw w batch_count train_count drawn in
        let! t := multi_train_tensors Fs (index_vector (fst b)) (index_array nn_count (snd b)) train targets in
        let! r := train_each l draws nn_count t 0 s Fs in
        let! Fs' := multi_optimize_scale draws' (fst r) (snd r) t in
        Ok (fst r, Fs', w)
  | _ => Err ValueError
  end.

(** examples/classify.py:185-350 [make_multivariate_classifier] (body 287-350); no scale optimization. *)
Definition train_multivariate_classifier (hnswlib_enabled : bool) (train labels : nd R) (nn_count batch_count : nat)
  (method : string) (nn_kw : dict nnval) (draw : nat -> list nat -> nat -> list nat) (s : store) (Fs : list full) (l : loss)
  (draws : nat -> nat -> list nat) : result (store * list full * nn_wrapper) :=
  match shape labels with
  | [train_count; response_count] =>
    if negb (response_count =? List.length Fs)%nat then Err ValueError
    else
      let! w := nn_init hnswlib_enabled (rows_of train) nn_count method nn_kw in
      let! fixed := all_fixed full (fun F => model_fixed s (f_attr F)) Fs in
      if fixed then Ok (s, Fs, w)
      else
        let! classes := argmax_labels labels in
        let! b := get_balanced_batch knn hnsw w classes batch_count draw in
        let! t := multi_train_tensors Fs (index_vector (fst b)) (index_array nn_count (snd b)) train labels in
        let! r := train_each l draws nn_count t 0 s Fs in
        Ok (fst r, snd r, w)
  | _ => Err ValueError
  end.

(** examples/regress.py:463-599 [do_regress] and examples/classify.py:401-534 [do_classify] with a list of specifications: train, then
    predict with the trained models and their lookup. *)
Definition trained_models (s : store) (Fs : list full) : list mmodel := map (full_mm gamma kv s) Fs.
Definition train_and_regress_multi (hnswlib_enabled : bool) (test train targets : nd R) (nn_count batch_count : nat)
  (method : string) (nn_kw : dict nnval) (drawn : list nat) (s : store) (Fs : list full) (l : loss)
  (draws draws' : nat -> nat -> list nat) : result (store * list full * nn_wrapper * (nd R * nd R)) :=
  let! r := train_multivariate_regressor hnswlib_enabled train targets nn_count batch_count method nn_kw drawn s Fs l draws draws' in
  let '(s', Fs', w) := r in
  let! p := regress_any ls knn hnsw (Multivariate (trained_models s' Fs')) test train w targets in
  Ok (s', Fs', w, p).
Definition train_and_classify_multi (hnswlib_enabled : bool) (test train labels : nd R) (nn_count batch_count : nat)
  (method : string) (nn_kw : dict nnval) (draw : nat -> list nat -> nat -> list nat) (s : store) (Fs : list full) (l : loss)
  (draws : nat -> nat -> list nat) : result (store * list full * nn_wrapper * nd R) :=
  let! r := train_multivariate_classifier hnswlib_enabled train labels nn_count batch_count method nn_kw draw s Fs l draws in
  let '(s', Fs', w) := r in
  let! p := work_classify_any ls knn hnsw (Multivariate (trained_models s' Fs')) test train w labels in
  Ok (s', Fs', w, p).
End Multi.
