(** Specification vocabulary for difference tensors and distances. *)
From Verif Require Import Base NdModel RSum.

(** The row of a data set that a (possibly negative) index selects. *)
Definition selects (n : nat) (i : Z) (row : nat) : Prop :=
  row < n /\ (i = Z.of_nat row \/ i = (Z.of_nat row - Z.of_nat n)%Z).

Definition out_of_range (n : nat) (i : Z) : Prop := (i < - Z.of_nat n \/ Z.of_nat n <= i)%Z.

(** Feature [f] of point [row]; a 1-D data set has a single feature. *)
Definition feature (data : nd R) (row f : nat) : R :=
  match shape data with [_] => at_ data [row] | _ => at_ data [row; f] end.

Definition feature_count (data : nd R) : nat :=
  match shape data with [_; f] => f | _ => 1 end.

(** A data set: n points, as a vector or as an (n, f) matrix. *)
Definition dataset (data : nd R) (n : nat) : Prop :=
  shape data = [n] \/ exists f, shape data = [n; f].

(** Squared Euclidean distance between two rows. *)
Definition sqdist (F : nat) (x y : nat -> R) : R := rsum F (fun f => (x f - y f) ^ 2)%R.
Definition euclid (F : nat) (x y : nat -> R) : R := sqrt (sqdist F x y).
