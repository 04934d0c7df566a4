(** Specification vocabulary for the variance scale (C33, C34, C56). *)
From Coq Require Import Sorted Permutation.
From Verif Require Import Base RSum LinAlgSpec.
Local Open Scope R_scope.

(** The sum over the batch of y^T K^-1 y (K^-1 y given by any solution of K c = y). *)
Definition total_quad (b n : nat) (K : nat -> nat -> nat -> R) (y : nat -> nat -> R) (q : R) : Prop :=
  exists c, (forall x, (x < b)%nat -> solves n (K x) (c x) (y x)) /\
    q = rsum b (fun x => dot n (y x) (c x)).

(** The documented analytic scale: (1 / (b n)) sum_x y_x^T K_x^-1 y_x. *)
Definition ml_scale (b n : nat) (K : nat -> nat -> nat -> R) (y : nat -> nat -> R) (s : R) : Prop :=
  exists q, total_quad b n K y q /\ s = q / (INR b * INR n).

(** Log likelihood (constants dropped: they do not depend on s) of the batch targets under
    independent Gaussians N(0, s K_x): the sum over the batch of
    - (n/2) ln s - (1/2) y_x^T (s K_x)^-1 y_x. *)
Definition batch_loglik (b n : nat) (K : nat -> nat -> nat -> R) (y : nat -> nat -> R) (s L : R) : Prop :=
  exists c, (forall x, (x < b)%nat -> solves n (fun i j => s * K x i j) (c x) (y x)) /\
    L = rsum b (fun x => - (INR n / 2) * ln s - dot n (y x) (c x) / 2).

(** The median of a list of numbers: the middle of the sorted list. *)
Definition is_median (l : list R) (m : R) : Prop :=
  exists s, Permutation l s /\ Sorted Rle s /\
    ((exists k, List.length s = (2 * k + 1)%nat /\ m = nth k s 0) \/
     (exists k, List.length s = (2 * k + 2)%nat /\ m = (nth k s 0 + nth (S k) s 0) / 2)).

(** Restriction of one batch to a list of neighbour positions. *)
Definition submat (A : nat -> nat -> R) (idx : list nat) : nat -> nat -> R :=
  fun i j => A (nth i idx O) (nth j idx O).

(** Sum over batch and responses of y_S^T K_SS^-1 y_S for the neighbour subset [idx]. *)
Definition sub_quad (b r : nat) (K : nat -> nat -> nat -> R) (y : nat -> nat -> nat -> R)
  (idx : list nat) (q : R) : Prop :=
  exists c, (forall x s, (x < b)%nat -> (s < r)%nat ->
      solves (List.length idx) (submat (K x) idx) (c x s) (fun i => y x s (nth i idx O))) /\
    q = rsum b (fun x => rsum r (fun s => dot (List.length idx) (fun i => y x s (nth i idx O)) (c x s))).
