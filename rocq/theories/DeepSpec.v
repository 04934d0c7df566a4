(** Specification vocabulary for models with an embedding (README.md:117-122, docstrings of examples/muygps_torch.py). *)
From Verif Require Import Base NdModel RSum LinAlgSpec.
Local Open Scope R_scope.

(** Squared distance of row [i] of [x] and row [j] of [y], with [F] features. *)
Definition row_dist (F : nat) (x y : nd R) (i j : nat) : R :=
  rsum F (fun f => (at_ x [i; f] - at_ y [j; f]) ^ 2).

(** [nn] lists, for each of the [b] rows of [y], the [w] closest of the [N] rows of [x]: distinct, in ascending order of distance,
    and none of the rows left out is closer. *)
Definition closest_rows (F N b w : nat) (x y : nd R) (nn : nd Z) : Prop :=
  shape nn = [b; w] /\ exists q : nat -> nat -> nat,
    forall a, (a < b)%nat ->
      (forall j, (j < w)%nat -> at_ nn [a; j] = Z.of_nat (q a j) /\ (q a j < N)%nat) /\
      (forall i j, (i < w)%nat -> (j < w)%nat -> q a i = q a j -> i = j) /\
      (forall i j, (i < j)%nat -> (j < w)%nat -> row_dist F y x a (q a i) <= row_dist F y x a (q a j)) /\
      (forall i j, (i < N)%nat -> (j < w)%nat -> (forall l, (l < w)%nat -> q a l <> i) ->
         row_dist F y x a (q a j) <= row_dist F y x a i).

(** Rows [c 0, c 1, ...] of [x]. *)
Definition rows_of (b F : nat) (x y : nd R) (c : nat -> nat) : Prop :=
  shape y = [b; F] /\ forall a f, (a < b)%nat -> (f < F)%nat -> at_ y [a; f] = at_ x [c a; f].

(** No two of the [N] rows coincide. *)
Definition distinct_rows (N F : nat) (x : nd R) : Prop :=
  forall i j, (i < N)%nat -> (j < N)%nat -> i <> j -> row_dist F x x i j <> 0.
