(** Specification vocabulary for C122: linear predictors of lensing observables and their errors. *)
From Verif Require Import Base NdModel RSum TensorSpec ShearModel ShearSpec ShearFlowSpec BestSpec.
Local Open Scope R_scope.

(** Sum over the observed observables [a] (0: convergence, 1 and 2: the shears) and the [k] neighbours [i]. *)
Definition over (km : shear_model) (k : nat) (f : nat -> nat -> R) : R :=
  rsum (observed km) (fun a => rsum k (f (unobserved km + a)%nat)).

(** Noise variance of an observation of observable [a]: [v], but twice that for the convergence when [sn] is set. *)
Definition lens_noise (sn : bool) (v : R) (a : nat) : R :=
  if sn then match a with O => 2 * v | _ => v end else v.

(** Covariance of the observations of [a] at neighbour [i] and of [a'] at neighbour [i']; neighbour [i] is row [rows i] of [train]. *)
Definition lens_obs_cov (l : R) (sn : bool) (v : R) (train : nd R) (rows : nat -> nat) (a i a' i' : nat) : R :=
  shear_cov l (obs a) (obs a') (feature train (rows i)) (feature train (rows i'))
  + (if (a =? a')%nat && (i =? i')%nat then lens_noise sn v a else 0).

(** Expected squared error, in units of the scale parameter, of predicting observable [o] at [point] by the linear combination with weights
    [w a i] of the observations. *)
Definition lens_error (km : shear_model) (sn : bool) (l v : R) (train : nd R) (k : nat) (rows : nat -> nat) (point : nat -> R)
  (o : nat) (w : nat -> nat -> R) : R :=
  shear_cov l (obs o) (obs o) point point
  - 2 * over km k (fun a i => w a i * shear_cov l (obs a) (obs o) (feature train (rows i)) point)
  + over km k (fun a i => over km k (fun a' i' => w a i * w a' i' * lens_obs_cov l sn v train rows a i a' i')).

(** Random variables [f o] (the observables at [point]) and [y a i] (the observations) with the second moments the model assigns for
    scale parameter [sc]. *)
Record lens_moments (outcomes : nat) (pi : nat -> R) (f : nat -> nat -> R) (y : nat -> nat -> nat -> R)
  (km : shear_model) (sn : bool) (l v sc : R) (train : nd R) (k : nat) (rows : nat -> nat) (point : nat -> R) : Prop := {
  lm_prob : rsum outcomes pi = 1 /\ forall s, (s < outcomes)%nat -> 0 <= pi s;
  lm_latent : forall o o', (o < 3)%nat -> (o' < 3)%nat -> expect outcomes pi (fun s => f o s * f o' s) = sc * shear_cov l (obs o) (obs o') point point;
  lm_cross : forall a i o, (unobserved km <= a < 3)%nat -> (i < k)%nat -> (o < 3)%nat ->
    expect outcomes pi (fun s => f o s * y a i s) = sc * shear_cov l (obs a) (obs o) (feature train (rows i)) point;
  lm_obs : forall a i a' i', (unobserved km <= a < 3)%nat -> (i < k)%nat -> (unobserved km <= a' < 3)%nat -> (i' < k)%nat ->
    expect outcomes pi (fun s => y a i s * y a' i' s) = sc * lens_obs_cov l sn v train rows a i a' i' }.

(** Error of the linear predictor with weights [w] of observable [f], at outcome [s]. *)
Definition lens_miss (km : shear_model) (k : nat) (f : nat -> R) (y : nat -> nat -> nat -> R) (w : nat -> nat -> R) (s : nat) : R :=
  f s - over km k (fun a i => w a i * y a i s).
