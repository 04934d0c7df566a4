(** Specification vocabulary for workflows over data sets and index matrices. *)
From Verif Require Import Base NdModel RSum LinAlgSpec GPSpec TensorSpec NoiseModel.
Local Open Scope R_scope.

(** A kernel functor that is a function [k] of the difference of two points with F features. *)
Definition pointwise_kernel (F : nat) (kern : nd R -> result (nd R)) (k : (nat -> R) -> R) : Prop :=
  (forall v v', (forall f, (f < F)%nat -> v f = v' f) -> k v = k v') /\
  (forall d sh, shape d = sh ++ [F] -> exists K, kern d = Ok K /\ shape K = sh /\
     forall idx, inb sh idx -> at_ K idx = k (fun f => at_ d (idx ++ [f]))).

(** The covariance the kernel assigns to point [i] of [X] and point [j] of [Y]. *)
Definition kcov (k : (nat -> R) -> R) (X Y : nd R) (i j : nat) : R :=
  k (fun f => feature X i f - feature Y j f).

(** An (n, w) matrix of row numbers below [N]. *)
Definition index_matrix (t : nd Z) (n w N : nat) (q : nat -> nat -> nat) : Prop :=
  shape t = [n; w] /\ forall x j, (x < n)%nat -> (j < w)%nat -> at_ t [x; j] = Z.of_nat (q x j) /\ (q x j < N)%nat.

(** Neighbourhood of training row [c] with the row itself in front: c, q c 0, q c 1, ... *)
Definition with_self (q : nat -> nat -> nat) (c j : nat) : nat :=
  match j with O => c | S j' => q c j' end.

(** Kernel matrix (plus noise) of the rows listed by [q c]. *)
Definition nbr_matrix (k : (nat -> R) -> R) (m : noise_model) (X : nd R) (q : nat -> nat -> nat) (c : nat)
  : nat -> nat -> R :=
  plus_diag (fun i j => kcov k X X (q c i) (q c j)) (noise_at m None c).

(** Position of response [s] of prediction [x] in the squeezed output. *)
Definition out_idx (r x s : nat) : list nat := if (r =? 1)%nat then [x] else [x; s].
