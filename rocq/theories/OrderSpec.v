(** Specification vocabulary for the order of the training rows in training (C100). *)
From Verif Require Import Base NdModel RSum NeighborsSpec.

(** Row [a] of the reordered data is row [p a] of the original.  The two runs train on the same batch: on every row, or on samples that hold
    the same rows (in any order). *)
Definition same_batch (N bc : nat) (p : nat -> nat) (drawn drawn' : list nat) : Prop :=
  (N <= bc)%nat \/
  (valid_choice (seq 0 N) bc drawn /\ valid_choice (seq 0 N) bc drawn' /\ forall a, (a < N)%nat -> (In a drawn' <-> In (p a) drawn)).
