(** Specification vocabulary for the dependence of predictions on the test features (C103). *)
From Verif Require Import Base NdModel RSum TensorModel TensorSpec NoiseModel GPSpec FlowSpec WorkSpec LibSpec.
Local Open Scope R_scope.

(** [p 0], ..., [p (n-1)] are [n] different training rows (out of [N]), in any order, and all other training rows are farther from row [x] of
    [test] than each of them.  With [n = N] there are no other rows, and this holds of every listing of the training rows. *)
Definition strictly_nearest (test train : nd R) (N x n : nat) (p : nat -> nat) : Prop :=
  (forall j, (j < n)%nat -> (p j < N)%nat) /\
  (forall i j, (i < n)%nat -> (j < n)%nat -> p i = p j -> i = j) /\
  (forall a, (a < N)%nat -> (forall j, (j < n)%nat -> p j <> a) ->
     forall j, (j < n)%nat -> row_dist test train x (p j) < row_dist test train x a).

(** Distance between a row of one array and a row of another. *)
Definition point_dist (X Y : nd R) (F x y : nat) : R := euclid F (feature X x) (feature Y y).
