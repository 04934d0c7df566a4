(** Specification vocabulary for exact leave-one-out cross-validation of a Gaussian process (C96). *)
From Verif Require Import Base NdModel RSum LinAlgSpec GPSpec NoiseModel MuyGPSModel HyperModel NamedModel NamedSpec TensorSpec KernelModel KernelSpec
  FlowSpec LibSpec LossModel LossSpec ChassisModel ChassisSpec WorkSpec LocalSpec TrainModel TrainSpec.
Local Open Scope R_scope.

(** For a Gaussian process with [N] responses [y] and covariance matrix [A] (noise included): [alpha] is A^-1 y and [kappa] the diagonal of A^-1. *)
Definition loo_quantities (N : nat) (A : nat -> nat -> R) (y alpha kappa : nat -> R) : Prop :=
  solves N A alpha y /\
  forall a, (a < N)%nat -> 0 < kappa a /\ exists beta, solves N A beta (fun b => if (a =? b)%nat then 1 else 0) /\ kappa a = beta a.

(** [q 0], ..., [q (n-1)] are different rows other than [c]. *)
Definition others_of (N n c : nat) (q : nat -> nat) : Prop :=
  (forall j, (j < n)%nat -> (q j < N)%nat /\ q j <> c) /\ (forall i j, (i < n)%nat -> (j < n)%nat -> q i = q j -> i = j).

(** Positive noise, or distinct training rows. *)
Definition full_sound (m : noise_model) (train : nd R) (N : nat) : Prop :=
  0 < noise_at m None 0 0 \/ (0 <= noise_at m None 0 0 /\ distinct_rows train N (fun i => i)).

(** The scale: the stored one, or the average over the left-out rows of the quadratic form of the remaining responses, per response. *)
Definition exact_scale (F : full) (N : nat) (y alpha kappa : nat -> R) (scale : R) : Prop :=
  match f_kind F with
  | FixedScale => scale = f_scale F
  | AnalyticScale _ => scale = rsum N (fun a => dot N y alpha - alpha a ^ 2 / kappa a) / (INR N * INR (N - 1))
  | DownSampleScale _ _ => False
  end.

(** [v] is minus the loss of the classical closed-form leave-one-out predictions of the Gaussian process on all [N] training rows:
    mean y_a - alpha_a / kappa_a, variance 1 / kappa_a - noise. *)
Definition exact_loo_value (gamma : R -> R) (kv : R -> R -> R) (s : store) (F : full) (l : loss) (kw : dict R)
  (train targets : nd R) (N : nat) (v : R) : Prop :=
  exists K alpha kappa scale L, full_lib s F = Some K /\
    let A := full_matrix (lk_cov gamma kv K (feature_count train) (reals s) []) (full_noise s F) train in
    let y := fun a => at_ targets [a] in
    loo_quantities N A y alpha kappa /\ exact_scale F N y alpha kappa scale /\
    batch_loss l kw N y (fun a => y a - alpha a / kappa a) (fun a => 1 / kappa a - noise_at (full_noise s F) None 0 0) scale = Some L /\ v = - L.

(** The scale of the model [F] on all the training rows. *)
Definition exact_scale_value (gamma : R -> R) (kv : R -> R -> R) (s : store) (F : full) (train targets : nd R) (N : nat) (sc : R) : Prop :=
  exists K alpha kappa, full_lib s F = Some K /\
    let A := full_matrix (lk_cov gamma kv K (feature_count train) (reals s) []) (full_noise s F) train in
    let y := fun a => at_ targets [a] in
    loo_quantities N A y alpha kappa /\ exact_scale F N y alpha kappa sc.
