(** Specification vocabulary for locality and noise (C94, C95). *)
From Verif Require Import Base NdModel RSum TensorModel TensorSpec NoiseModel GPSpec FlowSpec WorkSpec.
Local Open Scope R_scope.

(** Seen from test row [x], the second training set agrees with the first one as far as the [n] nearest rows [p] of the first: they are in
    the second set (wherever they are stored) with the same features and responses, and all its other rows are farther away. *)
Definition same_nearby (test train targets : nd R) (N : nat) (train' targets' : nd R) (N' : nat) (ex : list nat) (x n : nat) : Prop :=
  exists p p' : nat -> nat,
    nearest_rows test train N x n p /\
    (forall j, (j < n)%nat -> (p' j < N')%nat /\ same_row train' train (p' j) (p j) /\
       forall e, inb ex e -> at_ targets' (p' j :: e) = at_ targets (p j :: e)) /\
    (forall i j, (i < n)%nat -> (j < n)%nat -> p' i = p' j -> i = j) /\
    (forall a, (a < N')%nat -> (forall j, (j < n)%nat -> p' j <> a) ->
       forall j, (j < n)%nat -> row_dist test train x (p j) < row_dist test train' x a).

(** Covariance matrix of all the training responses, in the order of the training data, under noise that is the same for every row. *)
Definition full_matrix (k : (nat -> R) -> R) (m : noise_model) (train : nd R) (a b : nat) : R :=
  kcov k train train a b + (if (a =? b)%nat then noise_at m None 0 0 else 0).

(** Test row [x] is none of the first [N] training rows. *)
Definition new_row (test train : nd R) (x N : nat) : Prop :=
  forall a, (a < N)%nat -> exists f, (f < feature_count train)%nat /\ feature test x f <> feature train a f.
