(** Specification vocabulary for repeated measurements (C113). *)
From Verif Require Import Base NdModel RSum NoiseModel GPSpec TensorSpec FlowSpec.
Local Open Scope R_scope.

(** Sum of [f i] over the neighbours [i < n] that belong to place [a] of the grouping [p]. *)
Definition group_sum (n : nat) (p : nat -> nat) (a : nat) (f : nat -> R) : R := rsum n (fun i => if (p i =? a)%nat then f i else 0).

(** The [n] rows [q] of [train] are repeated measurements of the [m] points [q'] of [train']: row [q i] is the same point as [q' (p i)], and
    every point is measured at least once. *)
Definition repeats (train train' : nd R) (n m : nat) (q q' p : nat -> nat) : Prop :=
  (forall i, (i < n)%nat -> (p i < m)%nat /\ forall f, (f < feature_count train)%nat -> feature train (q i) f = feature train' (q' (p i)) f) /\
  forall a, (a < m)%nat -> exists i, (i < n)%nat /\ p i = a.

(** Precision-weighted pooling: place [a] has noise variance [1 / sum (1 / noise)] and response [sum (y / noise) / sum (1 / noise)]. *)
Definition pooled_noise (n : nat) (p : nat -> nat) (noise : nat -> R) (a : nat) (v : R) : Prop := v = 1 / group_sum n p a (fun i => 1 / noise i).
Definition pooled_response (n : nat) (p : nat -> nat) (noise y : nat -> R) (a : nat) (v : R) : Prop :=
  v = group_sum n p a (fun i => y i / noise i) / group_sum n p a (fun i => 1 / noise i).

(** With equal noise: the number of measurements of place [a], and their plain average. *)
Definition measurements (n : nat) (p : nat -> nat) (a : nat) : R := group_sum n p a (fun _ => 1).
Definition averaged (n : nat) (p : nat -> nat) (y : nat -> R) (a : nat) (v : R) : Prop := v = group_sum n p a y / measurements n p a.

(** Every row of [train] is a copy of the row [pi a] of [train'], and every row of [train'] has exactly [r] copies. *)
Definition replicated (train train' : nd R) (N N' r : nat) (pi : nat -> nat) : Prop :=
  (forall a, (a < N)%nat -> (pi a < N')%nat /\ forall f, (f < feature_count train)%nat -> feature train a f = feature train' (pi a) f) /\
  forall b, (b < N')%nat -> List.length (filter (fun a => pi a =? b)%nat (seq 0 N)) = r.
