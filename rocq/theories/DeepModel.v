(** Model of torch/muygps_layer.py, torch/multivariate_muygps_layer.py and examples/muygps_torch.py: Gaussian process layers on top of
    an embedding, prediction with such models, their training loop and the refresh of their nearest neighbours.
    torch's RuntimeError for mismatched shapes is reported as the numpy model's ValueError; automatic differentiation and the
    optimizer are one oracle (the new values of the registered parameters); warnings and printing are left out. *)
From Verif Require Import Base NdModel RSum LinAlgModel GPModel NoiseModel MuyGPSModel TensorModel FlowModel MultiModel LossModel BackendModel NeighborsModel.
Local Open Scope R_scope.

(** ** The layers *)

(** What isinstance sees of [kernel.deformation] and of its [length_scale] (muygps_layer.py:106-119). *)
Inductive deformation_kind := IsotropyScalar | IsotropyOther | OtherDeformation.

(** MuyGPs_layer (muygps_layer.py:95-128).  [l1_kernel l] is the kernel at length scale [l]: the layer's [length_scale] *is* the
    parameter object [length_scale._val] of the model (math/torch.py:105, scalar.py:206), so the optimizer's in-place updates
    are seen by the kernel.  [l1_bounds] are the bounds of that parameter. *)
Record layer1 := mkLayer1 {
  l1_gp : gp;
  l1_kernel : R -> nd R -> result (nd R);
  l1_length_scale : R;
  l1_bounds : option (R * R);
  l1_indices : nd Z;
  l1_nn_indices : nd Z;
  l1_targets : nd R;
  l1_nn_targets : nd R
}.
(** muygps_layer.py:99-127 [__init__]. *)
Definition layer1_init (d : deformation_kind) (g : gp) (kern : R -> nd R -> result (nd R)) (l : R) (bounds : option (R * R))
  (ix nn : nd Z) (targets nn_targets : nd R) : result layer1 :=
  match d with
  | OtherDeformation => Err NotImplementedError
  | IsotropyOther => Err NotImplementedError
  | IsotropyScalar => Ok (mkLayer1 g kern l bounds ix nn targets nn_targets)
  end.
(** muygps_layer.py:129-164 [forward], torch backend. *)
Definition layer1_forward (ls : lsolver) (y : layer1) (x : nd R) : result (nd R * nd R) :=
  let g := make (l1_gp y) in
  let kern := l1_kernel y (l1_length_scale y) in
  let! cw := to_crosswise_tensor x x (l1_indices y) (l1_nn_indices y) in
  let! pw := to_pairwise_tensor x (l1_nn_indices y) in
  let! Kcross := kern cw in
  let! Kin := kern pw in
  let! predictions := gp_posterior_mean ls g Kin Kcross (l1_nn_targets y) None in
  let! variances := gp_posterior_variance ls g Kin Kcross in
  Ok (predictions, variances).

(** MultivariateMuyGPs_layer (multivariate_muygps_layer.py:89-117); no parameter is registered. *)
Record layerM := mkLayerM {
  lM_models : list mmodel;
  lM_indices : nd Z;
  lM_nn_indices : nd Z;
  lM_targets : nd R;
  lM_nn_targets : nd R
}.
(** [models[0]] of no models is an IndexError. *)
Definition layerM_init (ms : list mmodel) (ix nn : nd Z) (targets nn_targets : nd R) : result layerM :=
  match ms with [] => Err IndexError | _ => Ok (mkLayerM ms ix nn targets nn_targets) end.
(** multivariate_muygps_layer.py:122-154 [forward]: the variances first, no [_make]. *)
Definition layerM_forward (ls : lsolver) (y : layerM) (x : nd R) : result (nd R * nd R) :=
  let! cw := to_crosswise_tensor x x (lM_indices y) (lM_nn_indices y) in
  let! pw := to_pairwise_tensor x (lM_nn_indices y) in
  let! variances := mm_posterior_variance ls (lM_models y) pw cw in
  let! predictions := mm_posterior_mean ls (lM_models y) pw cw (lM_nn_targets y) in
  Ok (predictions, variances).

Inductive gp_layer := Single (y : layer1) | Multi (y : layerM).
Definition layer_forward (ls : lsolver) (y : gp_layer) (x : nd R) : result (nd R * nd R) :=
  match y with Single y => layer1_forward ls y x | Multi y => layerM_forward ls y x end.
(** [parameters()] of the layer: the one registered parameter, or none. *)
Definition layer_parameters (y : gp_layer) : list R :=
  match y with Single y => [l1_length_scale y] | Multi _ => [] end.
(** In-place update of the registered parameters by an optimizer (no bounds are consulted). *)
Definition layer_set_parameters (y : gp_layer) (v : list R) : gp_layer :=
  match y, v with
  | Single y, [l] => Single (mkLayer1 (l1_gp y) (l1_kernel y) l (l1_bounds y) (l1_indices y) (l1_nn_indices y) (l1_targets y) (l1_nn_targets y))
  | _, _ => y
  end.

(** ** Models with an embedding *)
Section Deep.
(** Weights of the embedding. *)
Variable P : Type.
(** [emb training draw weights x]: the embedding in training or evaluation mode; [draw] numbers the calls, so layers such as dropout may
    give another result each time. *)
Variable emb : bool -> nat -> P -> nd R -> nd R.
(** Nearest neighbour lookups: NN_Wrapper(features, nn_count, **nn_kwargs), its [nn_count], and [_get_nns] (indices only). *)
Variable L : Type.
Variable build : nd R -> nat -> result L.
Variable lookup_count : L -> nat.
Variable query : L -> nd R -> nat -> result (nd Z).
(** torch.nn.BCELoss and CrossEntropyLoss. *)
Variables bce ce : nd R -> nd R -> result R.
(** loss.backward(), optimizer.step(), scheduler.step() of iteration [i]: new weights and new registered parameters. *)
Variable opt : nat -> P -> list R -> P * list R.
Variable ls : lsolver.

(** A user's model of the documented form (README.md:117-122, _test/torch_utils.py:11-83): [embedding], [GP_layer], the attributes
    [batch_nn_indices] and [batch_nn_targets] that the training functions assign, the training flag, and the number of
    embedding calls so far. *)
Record deep := mkDeep {
  dm_embedding : option P;
  dm_layer : option gp_layer;
  dm_nn_indices : nd Z;
  dm_nn_targets : nd R;
  dm_training : bool;
  dm_draws : nat
}.

(** [model.embedding(x)]: None is not callable. *)
Definition embed (m : deep) (x : nd R) : result (nd R * deep) :=
  match dm_embedding m with
  | None => Err TypeError
  | Some w => Ok (emb (dm_training m) (dm_draws m) w x,
                  mkDeep (dm_embedding m) (dm_layer m) (dm_nn_indices m) (dm_nn_targets m) (dm_training m) (S (dm_draws m)))
  end.
Definition set_mode (b : bool) (m : deep) : deep :=
  mkDeep (dm_embedding m) (dm_layer m) (dm_nn_indices m) (dm_nn_targets m) b (dm_draws m).
Definition set_neighbors (nn : nd Z) (t : nd R) (m : deep) : deep :=
  mkDeep (dm_embedding m) (dm_layer m) nn t (dm_training m) (dm_draws m).
(** [model.forward] (_test/torch_utils.py:42-45). *)
Definition forward (m : deep) (x : nd R) : result (nd R * nd R * deep) :=
  let! (e, m) := embed m x in
  match dm_layer m with
  | None => Err TypeError
  | Some y => let! (p, v) := layer_forward ls y e in Ok (p, v, m)
  end.

(** [x.shape[0]]. *)
Definition row_count (x : nd R) : result nat := match shape x with n :: _ => Ok n | [] => Err IndexError end.

(** examples/muygps_torch.py:53-129 [predict_single_model] and :129-206 [predict_multiple_model], chosen by :274-293 [predict_model].
    [model.deformation] is [GP_layer.deformation].  A layer without the expected attribute cannot occur here. *)
Definition predict_model (m : deep) (test train responses : nd R) (nbrs : L) (nn_count : nat) : result (nd R * nd R * deep) :=
  match dm_layer m with
  | None => Err NotImplementedError
  | Some y =>
    match dm_embedding m with
    | None => Err NotImplementedError
    | Some _ =>
      let! (train_e, m) := embed m train in
      let! (test_e, m) := embed m test in
      let! test_count := row_count test_e in
      let! nn := query nbrs test_e nn_count in
      let! T := to_take responses nn in
      let! cw := to_crosswise_tensor test_e train_e (arange test_count) nn in
      let! pw := to_pairwise_tensor train_e nn in
      match y with
      | Single y =>
        let kern := l1_kernel y (l1_length_scale y) in
        let! Kcross := kern cw in
        let! Kin := kern pw in
        let! p := gp_posterior_mean ls (l1_gp y) Kin Kcross T None in
        let! v := gp_posterior_variance ls (l1_gp y) Kin Kcross in
        Ok (p, v, m)
      | Multi y =>
        let! p := mm_posterior_mean ls (lM_models y) pw cw T in
        let! v := mm_posterior_variance ls (lM_models y) pw cw in
        Ok (p, v, m)
      end
    end
  end.

(** ** Training *)

Inductive deep_loss := LMse | LBce | LCe | LLool.
(** muygps_torch.py:410-421. *)
Definition parse_loss (name : string) : result deep_loss :=
  let n := lower name in
  if String.eqb n "mse" then Ok LMse
  else if String.eqb n "bce" then Ok LBce
  else if String.eqb n "ce" then Ok LCe
  else if String.eqb n "lool" then Ok LLool
  else Err ValueError.

(** torch.nn.MSELoss: the mean over all entries of the (broadcast) squared differences. *)
Definition mse_loss (p t : nd R) : result R :=
  let! r := bop Rminus p t in Ok (nd_sum (ndmap (fun x => x ^ 2) r) / INR (nprod (shape r))).
(** muygps_torch.py:428-437: the number that is differentiated. *)
Definition deep_loss_value (k : deep_loss) (p t v : nd R) : result R :=
  match k with
  | LLool => let! l := to_lool_unscaled ls (squeeze p) (squeeze t) (squeeze v) in Ok (nd_sum l)
  | LMse => mse_loss p t
  | LBce => bce p t
  | LCe => ce p t
  end.

(** muygps_torch.py:450-462, 466-477 and 538-554: a new lookup over the embedded training data, the neighbours of the batch in it, and
    the two assignments to attributes of the *model*. *)
Definition refresh (m : deep) (train responses batch_features : nd R) (nn_count : nat) : result (L * deep) :=
  let! (e, m) := embed m train in
  let! nbrs := build e nn_count in
  let! (be, m) := embed m batch_features in
  let! nn := query nbrs be nn_count in
  let! T := to_take responses nn in
  Ok (nbrs, set_neighbors nn T m).

(** np.mod(i, update_frequency) == 0; numpy returns 0 (with a warning) for a zero divisor. *)
Definition update_due (i : nat) (freq : Z) : bool :=
  if (freq =? 0)%Z then true else (Z.of_nat i mod freq =? 0)%Z.

Definition model_parameters (m : deep) : list R := match dm_layer m with Some y => layer_parameters y | None => [] end.
(** optimizer.step(): the parameters of the embedding and those of the layer change in place. *)
Definition apply_step (i : nat) (m : deep) : deep :=
  match dm_embedding m with
  | None => m
  | Some w =>
    let (w', v') := opt i w (model_parameters m) in
    mkDeep (Some w') (match dm_layer m with Some y => Some (layer_set_parameters y v') | None => None end)
      (dm_nn_indices m) (dm_nn_targets m) (dm_training m) (dm_draws m)
  end.

(** One iteration (muygps_torch.py:423-464). *)
Definition train_step (k : deep_loss) (train responses batch_features batch_responses : nd R) (nn_count : nat) (freq : Z)
  (i : nat) (m : deep) : result deep :=
  let m := set_mode true m in
  let! (p, v, m) := forward m train in
  let! loss := deep_loss_value k p batch_responses v in
  let m := apply_step i m in
  if update_due i freq then
    let! (_, m) := refresh (set_mode false m) train responses batch_features nn_count in Ok m
  else Ok m.
Fixpoint train_loop (k : deep_loss) (train responses batch_features batch_responses : nd R) (nn_count : nat) (freq : Z)
  (i todo : nat) (m : deep) : result deep :=
  match todo with
  | O => Ok m
  | S todo => let! m := train_step k train responses batch_features batch_responses nn_count freq i m in
              train_loop k train responses batch_features batch_responses nn_count freq (S i) todo m
  end.
(** muygps_torch.py:297-474 [train_deep_kernel_muygps]. *)
Definition train_deep_kernel (m : deep) (train responses : nd R) (batch_indices : nd Z) (nbrs : L) (iterations : nat)
  (loss_function : string) (freq : Z) : result (L * deep) :=
  match dm_embedding m with
  | None => Err NotImplementedError
  | Some _ =>
    let nn_count := lookup_count nbrs in
    let! batch_features := to_take train batch_indices in
    let! batch_responses := to_take responses batch_indices in
    let! k := parse_loss loss_function in
    let! m := train_loop k train responses batch_features batch_responses nn_count freq 0 iterations m in
    refresh m train responses batch_features nn_count
  end.
(** muygps_torch.py:477-555 [update_nearest_neighbors]. *)
Definition update_nearest_neighbors (m : deep) (train responses : nd R) (batch_indices : nd Z) (nn_count : nat) : result (L * deep) :=
  match dm_embedding m with
  | None => Err NotImplementedError
  | Some _ =>
    let! batch_features := to_take train batch_indices in
    refresh m train responses batch_features nn_count
  end.
End Deep.
