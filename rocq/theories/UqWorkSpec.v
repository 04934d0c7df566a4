(** Specification vocabulary for the uncertainty-quantification workflow. *)
From Verif Require Import Base NdModel RSum LinAlgSpec GPSpec NoiseModel TensorSpec FlowSpec LibSpec ClassifyModel ClassifySpec
  NeighborsSpec WorkSpec TrainSpec.
Local Open Scope R_scope.

(** The surrogate prediction of one test row from its neighbours [q 0], ..., [q (n-1)] with classes [cl]: the common label with
    variance 0 if all neighbours have the same class, otherwise the kriging means of both label columns and the scaled kriging
    variance. *)
Definition uq_prediction (k : (nat -> R) -> R) (m : noise_model) (scale : R) (test train : nd R) (n : nat) (q : nat -> nat -> nat)
  (cl : nat -> nat) (lo hi : R) (x : nat) (mean : nat -> R) (var : R) : Prop :=
  ((forall j, (j < n)%nat -> cl (q x j) = cl (q x O)) ->
     var = 0 /\ forall c, (c < 2)%nat -> mean c = if (c =? cl (q x O))%nat then hi else lo) /\
  ((exists j, (j < n)%nat /\ cl (q x j) <> cl (q x O)) ->
     (forall c, (c < 2)%nat ->
        kriging n (nbr_matrix k m train q x) (fun j => kcov k test train x (q x j))
          (fun j => if (c =? cl (q x j))%nat then hi else lo) (mean c)) /\
     (exists w, solves n (nbr_matrix k m train q x) w (fun j => kcov k test train x (q x j)) /\
        var = scale * (1 - dot n w (fun j => kcov k test train x (q x j)))) /\
     0 <= var <= scale).

(** Leave-one-out predictions of both label columns of the batch rows [idx], with scaled variances. *)
Definition batch_predictions (k : (nat -> R) -> R) (m : noise_model) (scale : R) (train : nd R) (n : nat) (idx : list nat)
  (q : nat -> nat -> nat) (cl : nat -> nat) (lo hi : R) (mean : nat -> nat -> R) (var : nat -> R) : Prop :=
  forall x, (x < List.length idx)%nat ->
    (forall c, (c < 2)%nat ->
       kriging n (nbr_matrix k m train q x) (fun j => kcov k train train (nth x idx O) (q x j))
         (fun j => if (c =? cl (q x j))%nat then hi else lo) (mean x c)) /\
    exists w, solves n (nbr_matrix k m train q x) w (fun j => kcov k train train (nth x idx O) (q x j)) /\
      var x = scale * (1 - dot n w (fun j => kcov k train train (nth x idx O) (q x j))).

(** An objective that returns a position of the cutoff grid whatever its arguments. *)
Definition grid_objective (f : (nat -> num) -> (nat -> num) -> nat -> nat -> Z) : Prop :=
  forall al be c i, (0 <= f al be c i < Z.of_nat grid_count)%Z.

(** The i-th cutoff of the documented grid. *)
Definition grid_point (i : nat) : R := 1 / 100 + INR i * ((20 - 1 / 100) / 1998).

(** The cutoff the objective [f] selects: [f] sees, for each grid point, the fraction of the wrong batch rows whose interval misses
    the boundary and the fraction of the right batch rows whose interval meets it (NaN if there are no such rows), with the numbers
    of right and wrong rows, and returns a position in the grid. *)
Definition selected_cutoff (t : nat) (right : nat -> bool) (hit : R -> nat -> bool)
  (f : (nat -> num) -> (nat -> num) -> nat -> nat -> Z) (cut : R) : Prop :=
  let wrong := fun x => negb (right x) in
  exists al be i,
    (forall j, al j = if (how_many t wrong =? 0)%nat then NaN else Fin (1 - fraction t wrong (hit (grid_point j)))) /\
    (forall j, be j = if (how_many t right =? 0)%nat then NaN else Fin (fraction t right (hit (grid_point j)))) /\
    f al be (how_many t right) (how_many t wrong) = Z.of_nat i /\ (i < grid_count)%nat /\ cut = grid_point i.
