(** Specification vocabulary for the expected training objective on data drawn from one of the candidate models (C112). *)
From Verif Require Import Base NdModel RSum LinAlgSpec GPSpec NoiseModel MuyGPSModel HyperModel NamedModel NamedSpec TensorSpec KernelModel KernelSpec
  FlowSpec LibSpec LossModel LossSpec ChassisModel ChassisSpec WorkSpec TrainModel TrainSpec BestSpec CalibSpec ExactLooSpec.
Local Open Scope R_scope.

(** The situation of C83: a documented model with optimizable parameters [names] in the box [bounds], and a batch of rows [c] with
    neighbours [q] (different rows, none of them the left-out row itself). *)
Record training (s : store) (F : full) (names : list string) (x0 : list num) (bounds : list (num * num)) (train : nd R)
  (N b n : nat) (c : nat -> nat) (q : nat -> nat -> nat) : Prop := {
  tn_model : model_ok s F;
  tn_bounds : bounds_ok s F;
  tn_positive : positive_bounds s F;
  tn_free : leading_free s (k_ls (m_kernel (f_attr F)));
  tn_params : get_opt_params s (f_attr F) = Ok (names, x0, bounds);
  tn_kind : f_kind F = FixedScale \/ ~ In "noise"%string names;
  tn_trainable : trainable s F train b n;
  tn_posed : loo_well_posed (full_noise s F) train b n c q;
  tn_others : forall x, (x < b)%nat -> others_of N n (c x) (q x)
}.

(** [T o] are the targets observed in outcome [o]; their second moments are the covariance [k] plus the noise [m], times [sc]. *)
Definition drawn_from (S : nat) (pi : nat -> R) (T : nat -> nd R) (k : (nat -> R) -> R) (m : noise_model) (sc : R) (train : nd R) (N : nat) : Prop :=
  probability S pi /\
  forall a c, (a < N)%nat -> (c < N)%nat ->
    expect S pi (fun o => at_ (T o) [a] * at_ (T o) [c]) = sc * (kcov k train train a c + if (a =? c)%nat then noise_at m None 0 0 else 0).

(** The data are drawn from the model that the optimizer would return for the point [x] of the box. *)
Definition drawn_at (gamma : R -> R) (kv : R -> R -> R) (s : store) (F : full) (names : list string) (bounds : list (num * num))
  (train : nd R) (N : nat) (S : nat) (pi : nat -> R) (T : nat -> nd R) (sc : R) (x : list R) : Prop :=
  in_box x bounds /\
  exists s' F' K, new_muygps s F names bounds (combine names (map Fin x)) = Ok (s', F') /\ full_lib s' F' = Some K /\
    uniform_noise (full_noise s' F') /\
    drawn_from S pi T (lk_cov gamma kv K (feature_count train) (reals s') []) (full_noise s' F') sc train N.

(** The model of the point [x] has homoscedastic noise [nu] and gives the correlation [rho y] to the left-out row [c y] and its only
    neighbour [q y 0]. *)
Definition correlations_at (gamma : R -> R) (kv : R -> R -> R) (s : store) (F : full) (names : list string) (bounds : list (num * num))
  (train : nd R) (x : list R) (b : nat) (c : nat -> nat) (q : nat -> nat -> nat) (nu : R) (rho : nat -> R) : Prop :=
  exists s' F' K, new_muygps s F names bounds (combine names (map Fin x)) = Ok (s', F') /\ full_lib s' F' = Some K /\ full_noise s' F' = HomoscedasticNoise nu /\ 
    forall y, (y < b)%nat -> rho y = kcov (lk_cov gamma kv K (feature_count train) (reals s') []) train train (c y) (q y O).
