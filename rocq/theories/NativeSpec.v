(** Specification vocabulary for C116: functions from the kernel's own space. *)
From Verif Require Import Base NdModel RSum TensorSpec NoiseModel GPSpec FlowSpec.
Local Open Scope R_scope.

(** The function v |-> sum_j a_j k(v - z_j) with [p] centres [z] and coefficients [a]. *)
Definition span (k : (nat -> R) -> R) (p : nat) (z : nat -> nat -> R) (a : nat -> R) (v : nat -> R) : R :=
  rsum p (fun j => a j * k (fun f => v f - z j f)).

(** Its squared norm in the reproducing kernel Hilbert space of [k]. *)
Definition span_norm2 (k : (nat -> R) -> R) (p : nat) (z : nat -> nat -> R) (a : nat -> R) : R :=
  rsum p (fun i => rsum p (fun j => a i * a j * k (fun f => z i f - z j f))).

(** Sum over the neighbours [q 0], ..., [q (n-1)] of test row [x] of the squared deviation of the response [y] from the function [fn], in units
    of the noise variance. *)
Definition misfit (m : noise_model) (train : nd R) (x n : nat) (q : nat -> nat) (y : nat -> R) (fn : (nat -> R) -> R) : R :=
  rsum n (fun j => (y (q j) - fn (feature train (q j))) ^ 2 / noise_at m None x j).
