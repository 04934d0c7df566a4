(** Specification vocabulary for the end-to-end workflows. *)
From Verif Require Import Base NdModel RSum TensorSpec NoiseModel GPSpec LibSpec.
Local Open Scope R_scope.

(** Squared Euclidean distance between row [x] of [X] and row [a] of [Y]. *)
Definition row_dist (X Y : nd R) (x a : nat) : R := sqdist (feature_count Y) (feature X x) (feature Y a).

(** [q 0], ..., [q (n-1)] are the [n] rows of [train] (out of [N]) nearest to row [x] of [test], in
    ascending order of distance, each once. *)
Definition nearest_rows (test train : nd R) (N x n : nat) (q : nat -> nat) : Prop :=
  (forall j, (j < n)%nat -> (q j < N)%nat) /\
  (forall i j, (i < n)%nat -> (j < n)%nat -> q i = q j -> i = j) /\
  (forall i j, (i <= j)%nat -> (j < n)%nat -> row_dist test train x (q i) <= row_dist test train x (q j)) /\
  (forall a, (a < N)%nat -> (forall j, (j < n)%nat -> q j <> a) ->
     forall j, (j < n)%nat -> row_dist test train x (q j) <= row_dist test train x a).

(** No two training rows are at the same distance from test row [x]. *)
Definition no_ties (test train : nd R) (N x : nat) : Prop :=
  forall a b, (a < N)%nat -> (b < N)%nat -> row_dist test train x a = row_dist test train x b -> a = b.

(** Row [x] of [X] and row [y] of [Y] are the same point. *)
Definition same_row (X Y : nd R) (x y : nat) : Prop :=
  forall f, (f < feature_count Y)%nat -> feature X x f = feature Y y f.

(** Training rows distinct, or positive noise: no kernel matrix is singular. *)
Definition sound_noise (m : noise_model) (train : nd R) (N M n : nat) : Prop :=
  (forall x i, (x < M)%nat -> (i < n)%nat -> 0 < noise_at m None x i) \/
  ((forall x i, (x < M)%nat -> (i < n)%nat -> 0 <= noise_at m None x i) /\ distinct_rows train N (fun i => i)).

(** Noise that is the same for every neighbour: none, or homoscedastic. *)
Definition uniform_noise (m : noise_model) : Prop := m = NullNoise \/ exists v, m = HomoscedasticNoise v.

(** [train'], [targets'] hold the rows of [train], [targets] in another order. *)
Definition reordered (train train' targets targets' : nd R) (N : nat) (ex : list nat) (p : nat -> nat) : Prop :=
  perm_on N p /\ shape train' = shape train /\ shape targets' = shape targets /\
  forall a, (a < N)%nat -> same_row train' train a (p a) /\
    forall e, inb ex e -> at_ targets' (a :: e) = at_ targets (p a :: e).
