(** Specification vocabulary for C123: penalised least-squares fits (kernel ridge regression). *)
From Verif Require Import Base NdModel RSum TensorSpec NoiseModel GPSpec FlowSpec NativeSpec.
Local Open Scope R_scope.

(** The function [fn] takes the responses [y] at those of the neighbours [q 0], ..., [q (n-1)] that have no noise. *)
Definition respects (m : noise_model) (train : nd R) (x n : nat) (q : nat -> nat) (y : nat -> R) (fn : (nat -> R) -> R) : Prop :=
  forall j, (j < n)%nat -> noise_at m None x j = 0 -> y (q j) = fn (feature train (q j)).

(** Squared norm of the function [span k p z a] plus its squared deviations from the responses, in units of the noise variance. *)
Definition penalised (k : (nat -> R) -> R) (m : noise_model) (train : nd R) (x n : nat) (q : nat -> nat) (y : nat -> R)
  (p : nat) (z : nat -> nat -> R) (a : nat -> R) : R :=
  span_norm2 k p z a + misfit m train x n q y (span k p z a).

(** Of all functions of the kernel's space (any finite number of centres, anywhere) that respect the responses without noise, [span k p z a]
    has the least penalised misfit, and it is the only one. *)
Definition best_fit (k : (nat -> R) -> R) (m : noise_model) (train : nd R) (x n : nat) (q : nat -> nat) (y : nat -> R)
  (p : nat) (z : nat -> nat -> R) (a : nat -> R) : Prop :=
  respects m train x n q y (span k p z a) /\
  forall p' z' a', respects m train x n q y (span k p' z' a') ->
    penalised k m train x n q y p z a <= penalised k m train x n q y p' z' a' /\
    (penalised k m train x n q y p' z' a' = penalised k m train x n q y p z a -> forall v, span k p' z' a' v = span k p z a v).
