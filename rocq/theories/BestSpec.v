(** Specification vocabulary for optimal linear prediction (C90, C91). *)
From Verif Require Import Base NdModel RSum TensorSpec NoiseModel GPSpec FlowSpec.
Local Open Scope R_scope.

(** Covariance of the observations at the training rows [a] and [b], listed as neighbours [i] and [j] of test row [x]: the kernel, plus the
    noise variance on the diagonal. *)
Definition obs_cov (k : (nat -> R) -> R) (m : noise_model) (train : nd R) (x : nat) (q : nat -> nat) (i j : nat) : R :=
  kcov k train train (q i) (q j) + (if (i =? j)%nat then noise_at m None x i else 0).

(** Expected squared error, in units of the scale parameter, of predicting the latent value at row [x] of [test] by the linear combination
    with weights [w] of the observations at the [n] training rows [q 0 .. q (n-1)]. *)
Definition error_variance (k : (nat -> R) -> R) (m : noise_model) (test train : nd R) (x n : nat) (q : nat -> nat) (w : nat -> R) : R :=
  kcov k test test x x
  - 2 * rsum n (fun j => w j * kcov k test train x (q j))
  + rsum n (fun i => rsum n (fun j => w i * w j * obs_cov k m train x q i j)).

(** Expected value over [S] outcomes with probabilities [pi]. *)
Definition expect (S : nat) (pi X : nat -> R) : R := rsum S (fun s => pi s * X s).

(** Random variables [f] (the latent value at row [x] of [test]) and [y j] (the observation at training row [q j]) whose second moments are
    those the model assigns, with scale parameter [sc]. *)
Record model_moments (S : nat) (pi f : nat -> R) (y : nat -> nat -> R)
  (k : (nat -> R) -> R) (m : noise_model) (sc : R) (test train : nd R) (x n : nat) (q : nat -> nat) : Prop := {
  mm_prob : rsum S pi = 1 /\ forall s, (s < S)%nat -> 0 <= pi s;
  mm_latent : expect S pi (fun s => f s * f s) = sc * kcov k test test x x;
  mm_cross : forall j, (j < n)%nat -> expect S pi (fun s => f s * y j s) = sc * kcov k test train x (q j);
  mm_obs : forall i j, (i < n)%nat -> (j < n)%nat -> expect S pi (fun s => y i s * y j s) = sc * obs_cov k m train x q i j
}.

(** Mean squared error of the linear predictor with weights [w]. *)
Definition mean_squared_error (S : nat) (pi f : nat -> R) (y : nat -> nat -> R) (n : nat) (w : nat -> R) : R :=
  expect S pi (fun s => (f s - rsum n (fun j => w j * y j s)) ^ 2).

(** The [n] rows [q] are among the [n'] rows [q'], each in its own place. *)
Definition among (n : nat) (q : nat -> nat) (n' : nat) (q' : nat -> nat) : Prop :=
  exists p : nat -> nat, (forall i, (i < n)%nat -> (p i < n')%nat /\ q' (p i) = q i) /\
    forall i j, (i < n)%nat -> (j < n)%nat -> p i = p j -> i = j.
