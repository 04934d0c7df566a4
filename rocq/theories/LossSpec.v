(** Specification of the losses: sums over the entries of an array and the documented formulas
    (docstrings of optimize/loss.py).  Depends on no model code beyond the array type. *)
From Verif Require Import Base NdModel RSum LinAlgSpec.
Local Open Scope R_scope.

(** Sum of [f] over every multi-index of [sh], axis by axis. *)
Fixpoint total (sh : list nat) (f : list nat -> R) : R :=
  match sh with
  | [] => f []
  | d :: sh' => rsum d (fun i => total sh' (fun l => f (i :: l)))
  end.

(** The documented formulas, entry by entry. *)
Definition residual_sq (p t : nd R) (idx : list nat) : R := (at_ p idx - at_ t idx) ^ 2.
Definition huber_entry (delta r : R) : R := delta ^ 2 * (sqrt (1 + (r / delta) ^ 2) - 1).
Definition lool_entry (r v : R) : R := r ^ 2 / v + ln v.
Definition looph_entry (delta r v : R) : R :=
  2 * delta ^ 2 * (sqrt (1 + r ^ 2 / (delta ^ 2 * v)) - 1) + ln v.

(** Univariate data for lool: predictions, targets and variances are b-vectors. *)
Definition vec3 (p t v : nd R) (b : nat) : Prop := shape p = [b] /\ shape t = [b] /\ shape v = [b].

(** Class probability of a row of scores. *)
Definition prob (k : nat) (row : nat -> R) (j : nat) : R := exp (row j) / rsum k (fun c => exp (row c)).

(** Multivariate lool as documented: for each batch element r^T V^-1 r + log det V. *)
Definition lool_block (n : nat) (V : nat -> nat -> R) (r : nat -> R) (logdet val : R) : Prop :=
  exists w, solves n V w r /\ val = dot n r w + logdet.
