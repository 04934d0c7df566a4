(** Specification vocabulary for inexact arithmetic (C106): a solver and a kernel that return approximations. *)
From Verif Require Import Base NdModel RSum LinAlgModel LinAlgSpec.
Local Open Scope R_scope.

(** [w] satisfies the [n] equations [A w = b] up to residuals of size [d]. *)
Definition near_solves (n : nat) (A : nat -> nat -> R) (w b : nat -> R) (d : R) : Prop :=
  forall i, (i < n)%nat -> Rabs (rsum n (fun j => A i j * w j) - b i) <= d.

(** The quadratic form of [A] is at least [c] times the squared length: [A] is at distance at least [c] from every singular matrix. *)
Definition bounded_below (n : nat) (A : nat -> nat -> R) (c : R) : Prop := forall v, c * rsum n (fun i => v i ^ 2) <= quad n A v.

(** A solver of systems of [n] equations that leaves residuals up to [d] whenever the matrix has entries up to [a] and is bounded below by
    [c], and the right-hand sides have entries up to 2.  Nothing is assumed of it for other systems. *)
Definition rounded_solver (ls : lsolver) (n : nat) (c a d : R) : Prop :=
  forall k A B, bounded_below n A c -> (forall i j, (i < n)%nat -> (j < n)%nat -> Rabs (A i j) <= a) ->
    (forall i j, (i < n)%nat -> (j < k)%nat -> Rabs (B i j) <= 2) ->
    exists X, ls n k A B = Some X /\ forall j, (j < k)%nat -> near_solves n A (fun i => X i j) (fun i => B i j) d.

(** A kernel functor whose values differ from those of [kern] by at most [d]; it accepts what [kern] accepts. *)
Definition rounded_kernel (F : nat) (kern' kern : nd R -> result (nd R)) (d : R) : Prop :=
  forall diffs sh, shape diffs = sh ++ [F] -> exists K' K, kern' diffs = Ok K' /\ kern diffs = Ok K /\ shape K' = sh /\ shape K = sh /\
    forall idx, inb sh idx -> Rabs (at_ K' idx - at_ K idx) <= d.
