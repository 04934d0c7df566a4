(** Model of training a shear model: the optimization chassis (objective.py, optimize/chassis.py, gp/muygps.py) applied to the kernels of
    gp/kernels/experimental/shear.py, in the workflow of tests/experimental/shear.py:293-440.
    A shear kernel object holds one scalar [length_scale] and inherits KernelFn's bookkeeping (kernel_fn.py:61-121), exactly like an
    isotropic RBF object, so its parameters are represented as [KRbf (LSScalar n)] in the [full] record of ChassisModel. *)
From Verif Require Import Base NdModel RSum LinAlgModel GPModel NoiseModel MuyGPSModel HyperModel NamedModel
  TensorModel KernelModel LossModel ChassisModel ShearModel.
Local Open Scope R_scope.

(** self.deformation.length_scale() (shear.py:104-105, 219-220).  Any other deformation was rejected by the constructor (shear.py:88-92,
    200-204). *)
Definition shear_length_scale (s : store) (m : model) : result R :=
  match k_ls (m_kernel m) with
  | LSScalar n => Ok (reals s (nm_loc n))
  | _ => Err ValueError
  end.

(** shear.py:102-130, 216-265: [__call__] with the keyword arguments of the objective.  [noise] and [batch_features] reach the backend
    functions' unused keyword arguments (_src/gp/kernels/shear/numpy.py:105, 166, 210). *)
Definition shear_kcall (km : shear_model) (cur : R) (diffs : nd R) (kw : dict R) : result (nd R) :=
  match km with
  | Full33 => shear33_call cur diffs true (dget kw "length_scale")
  | Two23 => shear23_call cur diffs true false (dget kw "length_scale")
  end.

(** The noise object: [sn] tells a ShearNoise33 (gp/noise/shear.py:19-27) from a HomoscedasticNoise; both hold one [noise] value. *)
Definition shear_noise_of (sn : bool) (s : store) (F : full) (z : noise_obj) : noise_model :=
  match z with
  | NHomo n => if sn then ShearNoise33 (reals s (nm_loc n)) else HomoscedasticNoise (reals s (nm_loc n))
  | _ => noise_of s F z
  end.

(** gp/muygps.py:112-126 [_make] with gp/variance.py:24-43: Kout is evaluated when the model is made.  Simplification: parameters are
    not mutated between [_make] and the call. *)
Definition shear_gp (km : shear_model) (sn : bool) (s : store) (F : full) : result gp :=
  let! cur := shear_length_scale s (f_bound F) in
  let! Kout := match km with Full33 => shear33_Kout cur None | Two23 => shear23_Kout cur None end in
  Ok (mkGp (shear_noise_of sn s F (m_noise (f_bound F))) (f_kind F) (f_scale F) (f_var_scale F) Kout).

(** gp/muygps.py:533-551 [make_train_tensors] with a DifferenceIsotropy, targets moved to (batch, observable, neighbour) and the
    unobserved rows dropped (tests/experimental/shear.py:301-320, 421-430); the batch targets are the columns to be scored. *)
Record shear_train := mkShearTrain {
  sh_cross : nd R;
  sh_pair : nd R;
  sh_targets : nd R;
  sh_nn_targets : nd R
}.
Definition shear_train_tensors (km : shear_model) (mask : option (list nat)) (ix nn : nd Z) (train targets : nd R)
  : result shear_train :=
  let! c := crosswise_tensor train train ix nn in
  let! p := pairwise_tensor train nn in
  let! nt := take targets nn in
  let! t := take targets ix in
  let! y := match mask with None => Ok t | Some m => mask_cols t m end in
  Ok (mkShearTrain c p y (drop_rows (unobserved km) (swapaxes_last nt))).

Section ShearTrain.
Variable ls : lsolver.
Variable slogdet : nat -> mat -> R * R.
Variable eps : R.

(** objective.py:86-104 with optimize/chassis.py:177-196 for a shear model. *)
Definition shear_obj_fn (km : shear_model) (sn : bool) (s : store) (F : full) (l : loss) (loss_kw : dict R) (mask : option (list nat))
  (draws : nat -> list nat) (t : shear_train) (kw : dict R) : result R :=
  let! cur := shear_length_scale s (f_bound F) in
  let! g := shear_gp km sn s F in
  let! Kin := shear_kcall km cur (sh_pair t) kw in
  let! Kcross := shear_kcall km cur (sh_cross t) kw in
  predict_and_loss ls slogdet eps l
    (gp_posterior_mean ls g Kin Kcross (sh_nn_targets t) (dget kw "noise"))
    (gp_opt_variance ls g Kin Kcross (dget kw "noise"))
    (let! o := scale_opt ls g draws Kin (sh_nn_targets t) in
     match o with Some v => Ok v | None => Err ValueError end)
    (sh_targets t) mask loss_kw.

(** tests/experimental/shear.py:383-400 [_opt_chassis] (optimize/chassis.py:106-117): tensors, objective, optimizer. *)
Definition shear_optimize (opt : store -> full -> (dict R -> result R) -> result (store * full))
  (km : shear_model) (sn : bool) (s : store) (F : full) (l : loss) (loss_kw : dict R) (mask : option (list nat))
  (draws : nat -> list nat) (ix nn : nd Z) (train targets : nd R) : result (store * full) :=
  let! t := shear_train_tensors km mask ix nn train targets in
  opt s F (shear_obj_fn km sn s F l loss_kw mask draws t).

(** Prediction with a model object: tests/experimental/shear.py:293-301, 317-360 (posterior_mean, posterior_variance). *)
Definition shear_posterior (km : shear_model) (sn : bool) (s : store) (F : full) (test train targets : nd R) (ix nn : nd Z)
  : result (nd R * nd R) :=
  let! cur := shear_length_scale s (f_bound F) in
  let! g := shear_gp km sn s F in
  let! (Kin, Kcross, T) := shear_tensors km cur test train targets ix nn in
  let! mean := gp_posterior_mean ls g Kin Kcross T None in
  let! var := gp_posterior_variance ls g Kin Kcross in
  Ok (mean, var).
End ShearTrain.
