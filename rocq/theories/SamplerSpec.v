(** Specification vocabulary for the simulation samplers (C109). *)
From Coq Require Import Permutation Sorted.
From Verif Require Import Base NdModel RSum TensorSpec.
Local Open Scope R_scope.

(** Draws from a nonempty list return one of its elements. *)
Definition valid_pick (pick : nat -> list nat -> nat) : Prop := forall i l, l <> [] -> In (pick i l) l.

(** A shuffle of 0 .. n-1. *)
Definition shuffle (n : nat) (sfl : list nat) : Prop := Permutation sfl (seq 0 n).

(** [rows] lists, in increasing order and without repetition, exactly the positions where [P] holds among 0 .. n-1. *)
Definition lists_where (n : nat) (P : nat -> Prop) (rows : list nat) : Prop :=
  StronglySorted lt rows /\ forall i, In i rows <-> (i < n)%nat /\ P i.

(** [t] consists of the rows of [x] listed in [rows]. *)
Definition rows_of_data (x t : nd R) (rows : list nat) : Prop :=
  dataset t (List.length rows) /\ ndim t = ndim x /\ feature_count t = feature_count x /\
  forall a f, (a < List.length rows)%nat -> feature t a f = feature x (nth a rows 0%nat) f.

(** The [i]-th run of [interval] consecutive elements of [sfl]. *)
Definition block (sfl : list nat) (interval i : nat) : list nat := firstn interval (skipn (i * interval) sfl).
