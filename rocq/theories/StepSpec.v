(** Specification vocabulary for C119: adding one observation to the neighbours of every test row. *)
From Verif Require Import Base NdModel RSum LinAlgSpec GPSpec NoiseModel TensorSpec FlowSpec WorkSpec.
Local Open Scope R_scope.

(** Neighbours [q'] of row [x] are neighbours [q] followed by one more. *)
Definition one_more (w : nat) (q q' : nat -> nat -> nat) (M : nat) : Prop :=
  forall x j, (x < M)%nat -> (j < w)%nat -> q' x j = q x j.
(** Noise model [m'] gives the old neighbours the noise that [m] gives them. *)
Definition noise_extends (m m' : noise_model) (M w : nat) : Prop :=
  forall x j, (x < M)%nat -> (j < w)%nat -> noise_at m' None x j = noise_at m None x j.
(** Row [x] of [arrived] is the observed row that was added for test row [x]. *)
Definition arrivals (arrived train : nd R) (q' : nat -> nat -> nat) (w M : nat) : Prop :=
  forall x, (x < M)%nat -> same_row arrived train x (q' x w).

(** The covariance that remains between the unknown values at test row [x] and at row [a] once the neighbours are known. *)
Definition remaining_covariance (k : (nat -> R) -> R) (m : noise_model) (test train : nd R) (w x : nat) (q : nat -> nat -> nat) (a : nat) (c : R) : Prop :=
  exists u, solves w (nbr_matrix k m train q x) u (fun j => kcov k test train x (q x j)) /\
    c = kcov k test train x a - dot w u (fun j => kcov k train train a (q x j)).
