(** Specification vocabulary for drawing data from a prior (C108). *)
From Verif Require Import Base NdModel RSum LinAlgSpec TensorSpec NoiseModel GPSpec FlowSpec LibSpec BestSpec CalibSpec.
Local Open Scope R_scope.

(** What is assumed of an exact Cholesky routine: on symmetric matrices it succeeds exactly for the positive definite ones, with a lower
    triangular factor with positive diagonal whose product with its transpose is the matrix. *)
Definition cholesky_factor (n : nat) (A L : nat -> nat -> R) : Prop :=
  (forall i j, (i < n)%nat -> (j < n)%nat -> (i < j)%nat -> L i j = 0) /\
  (forall i, (i < n)%nat -> 0 < L i i) /\
  (forall i j, (i < n)%nat -> (j < n)%nat -> rsum n (fun k => L i k * L j k) = A i j).
Definition exact_cholesky (ch : nat -> (nat -> nat -> R) -> option (nat -> nat -> R)) : Prop :=
  forall n A, symmetric n A ->
    (pd n A <-> exists L, ch n A = Some L) /\ (forall L, ch n A = Some L -> cholesky_factor n A L).

(** Random vectors [z] with uncorrelated entries of mean square one. *)
Definition white (S : nat) (pi : nat -> R) (n : nat) (z : nat -> nat -> R) : Prop :=
  probability S pi /\ forall i j, (i < n)%nat -> (j < n)%nat ->
    expect S pi (fun o => z o i * z o j) = if (i =? j)%nat then 1 else 0.

(** Covariance of two observations in the prior: scale times (kernel plus noise on the diagonal). *)
Definition prior_cov (k : (nat -> R) -> R) (noise sc : R) (X : nd R) (i j : nat) : R :=
  sc * (kcov k X X i j + if (i =? j)%nat then noise else 0).

(** Entry [i] of a squeezed vector of [n] responses. *)
Definition response (n : nat) (y : nd R) (i : nat) : R := at_ y (if (n =? 1)%nat then [] else [i]).

(** The value of a noise model that is the same for every observation. *)
Definition noise_val (m : noise_model) : R := noise_at m None 0 0.

(** Data for which the prior has a density: positive noise, or no negative noise and no repeated row. *)
Definition sound_prior (v : R) (data : nd R) (n : nat) : Prop := 0 < v \/ (0 <= v /\ distinct_rows data n (fun i => i)).

(** [thing] lists the [M] rows of [test] and then the [N] rows of [train]. *)
Definition stacked (thing test train : nd R) (M N : nat) : Prop :=
  dataset thing (M + N) /\ feature_count thing = feature_count test /\
  (forall x f, (x < M)%nat -> feature thing x f = feature test x f) /\
  (forall a f, (a < N)%nat -> feature thing (M + a) f = feature train a f).

(** Row [i] of the pooled test and training rows; all [M + N] of them different points. *)
Definition pooled (test train : nd R) (M i f : nat) : R := if (i <? M)%nat then feature test i f else feature train (i - M) f.
Definition distinct_points (test train : nd R) (M N : nat) : Prop :=
  forall i j, (i < M + N)%nat -> (j < M + N)%nat -> i <> j ->
    exists f, (f < feature_count train)%nat /\ pooled test train M i f <> pooled test train M j f.

(** Responses as a vector or as a one-column matrix. *)
Definition column (y : nd R) (i : nat) : R := match shape y with [_] => at_ y [i] | _ => at_ y [i; 0%nat] end.
