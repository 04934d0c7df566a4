(** Specification vocabulary for predictions far from the data (C101) and for the sensitivity to the responses (C102). *)
From Verif Require Import Base NdModel RSum TensorModel TensorSpec NoiseModel GPSpec FlowSpec WorkSpec LibSpec.
Local Open Scope R_scope.

(** Test row [x] is at Euclidean distance at least [D] from each of the first [N] training rows. *)
Definition far_from (test train : nd R) (N x : nat) (D : R) : Prop :=
  forall a, (a < N)%nat -> D <= euclid (feature_count train) (feature test x) (feature train a).

(** The noise variance of every neighbour of every test row is at least [nu]. *)
Definition noise_at_least (m : noise_model) (nu : R) (M n : nat) : Prop :=
  forall x i, (x < M)%nat -> (i < n)%nat -> nu <= noise_at m None x i.

(** The problem stays away from singularity: the noise is bounded away from zero, or it is nonnegative and no training row is repeated. *)
Definition robust (m : noise_model) (nu : R) (train : nd R) (N M n : nat) : Prop :=
  noise_at_least m nu M n \/ noise_at_least m 0 M n /\ distinct_rows train N (fun i => i).
