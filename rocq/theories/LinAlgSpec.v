(** Specification vocabulary for linear algebra over R; depends on no model code. *)
From Verif Require Import Base RSum.
Local Open Scope R_scope.

(** The n-by-n system [A x = b]. *)
Definition solves (n : nat) (A : nat -> nat -> R) (x b : nat -> R) : Prop :=
  forall i, (i < n)%nat -> rsum n (fun j => A i j * x j) = b i.

(** Trivial kernel, i.e. the matrix is invertible. *)
Definition nonsingular (n : nat) (A : nat -> nat -> R) : Prop :=
  forall x, solves n A x (fun _ => 0) -> forall j, (j < n)%nat -> x j = 0.

Definition symmetric (n : nat) (A : nat -> nat -> R) : Prop :=
  forall i j, (i < n)%nat -> (j < n)%nat -> A i j = A j i.

Definition dot (n : nat) (x y : nat -> R) : R := rsum n (fun i => x i * y i).

Definition quad (n : nat) (A : nat -> nat -> R) (x : nat -> R) : R :=
  rsum n (fun i => rsum n (fun j => x i * A i j * x j)).

(** Positive semidefinite / positive definite quadratic forms. *)
Definition psd (n : nat) (A : nat -> nat -> R) : Prop := forall x, 0 <= quad n A x.
Definition pd (n : nat) (A : nat -> nat -> R) : Prop :=
  forall x, (exists i, (i < n)%nat /\ x i <> 0) -> 0 < quad n A x.

(** What is assumed of an exact linear solver: it returns a solution whenever it
    returns, and it returns exactly for the nonsingular matrices. *)
Definition exact_solver
  (ls : nat -> nat -> (nat -> nat -> R) -> (nat -> nat -> R) -> option (nat -> nat -> R)) : Prop :=
  (forall n k A B X, ls n k A B = Some X ->
     forall c, (c < k)%nat -> solves n A (fun i => X i c) (fun i => B i c)) /\
  (forall n k A B, nonsingular n A <-> exists X, ls n k A B = Some X).
