(** Specification vocabulary for C117: coinciding neighbours without noise. *)
From Verif Require Import Base NdModel TensorSpec NoiseModel GPSpec FlowSpec.
Local Open Scope R_scope.

(** Two of the neighbours [q 0], ..., [q (n-1)] of row [x] have equal features, and no noise. *)
Definition coincident (m : noise_model) (train : nd R) (n x : nat) (q : nat -> nat) : Prop :=
  exists i j, (i < n)%nat /\ (j < n)%nat /\ i <> j /\ noise_at m None x i = 0 /\ noise_at m None x j = 0 /\
    forall f, (f < feature_count train)%nat -> feature train (q i) f = feature train (q j) f.
