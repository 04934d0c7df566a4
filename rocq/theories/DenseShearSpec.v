(** Specification vocabulary for the dense lensing reference (C110). *)
From Verif Require Import Base NdModel TensorSpec ShearSpec.
Local Open Scope R_scope.

(** Every neighbour row lists each of the [n] training rows once, in any order. *)
Definition all_neighbours (nn : nd Z) (b n : nat) : Prop :=
  forall x, (x < b)%nat -> exists rows,
    (forall i, (i < n)%nat -> selects n (at_ nn [x; i]) (rows i)) /\
    (forall i j, (i < n)%nat -> (j < n)%nat -> rows i = rows j -> i = j).

(** Prior covariance of two noisy lensing observations. *)
Definition lensing_cov (l noise : R) (X : nd R) (i a j c : nat) : R :=
  shear_cov l (obs a) (obs c) (feature X i) (feature X j) + if (i =? j)%nat && (a =? c)%nat then noise else 0.
