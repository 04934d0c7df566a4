(** Vocabulary for the continuity of shear predictions (C104). *)
From Verif Require Import Base NdModel.
Local Open Scope R_scope.

(** Two tables of [n] rows and [c] columns whose entries differ by less than [d]. *)
Definition tables_close (n c : nat) (A B : nd R) (d : R) : Prop :=
  forall i f, (i < n)%nat -> (f < c)%nat -> Rabs (at_ B [i; f] - at_ A [i; f]) < d.
