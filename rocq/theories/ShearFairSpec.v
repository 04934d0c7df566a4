(** Specification vocabulary for the expected training objective on random surveys (C112 for the weak-lensing models). *)
From Verif Require Import Base NdModel RSum TensorSpec ShearModel ShearSpec ShearFlowSpec BestSpec CalibSpec ShearBestSpec.
Local Open Scope R_scope.

(** [T t] are the three observables measured at the [n] rows of [train] in outcome [t]; their second moments are the lensing covariances of
    length scale [l] plus the noise of each measurement, times [sc]. *)
Definition survey_drawn (outcomes : nat) (pi : nat -> R) (T : nat -> nd R) (sn : bool) (l v sc : R) (train : nd R) (n : nat) : Prop :=
  probability outcomes pi /\
  forall i a i' a', (i < n)%nat -> (a < 3)%nat -> (i' < n)%nat -> (a' < 3)%nat ->
    expect outcomes pi (fun t => at_ (T t) [i; a] * at_ (T t) [i'; a']) =
      sc * (shear_cov l (obs a) (obs a') (feature train i) (feature train i')
            + if (i =? i')%nat && (a =? a')%nat then lens_noise sn v a else 0).
