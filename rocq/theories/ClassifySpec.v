(** Specification vocabulary for the classification workflows. *)
From Verif Require Import Base NdModel.
Local Open Scope R_scope.

(** All neighbours of test row x (rows q x 0 .. q x (w-1) of the label matrix) carry the same
    label vector. *)
Definition agree (labels : nd R) (C w : nat) (q : nat -> nat -> nat) (x : nat) : Prop :=
  forall j c, (j < w)%nat -> (c < C)%nat -> at_ labels [q x j; c] = at_ labels [q x O; c].
(** Their first label columns coincide. *)
Definition agree_first (labels : nd R) (w : nat) (q : nat -> nat -> nat) (x : nat) : Prop :=
  forall j, (j < w)%nat -> at_ labels [q x j; O] = at_ labels [q x O; O].

(** The label matrix is the one-hot encoding, with values lo and hi, of the classes [cl]. *)
Definition one_hot (labels : nd R) (N C : nat) (lo hi : R) (cl : nat -> nat) : Prop :=
  lo <> hi /\ shape labels = [N; C] /\
  forall i, (i < N)%nat -> (cl i < C)%nat /\
    forall c, (c < C)%nat -> at_ labels [i; c] = if (c =? cl i)%nat then hi else lo.

(** A query (ix, nn) about test rows r 0, .., r (k-1), with their neighbour rows. *)
Definition query (test_nn ix nn : nd Z) (k w : nat) (r : nat -> nat) : Prop :=
  shape ix = [k] /\ shape nn = [k; w] /\
  forall i, (i < k)%nat -> at_ ix [i] = Z.of_nat (r i) /\
    forall j, (j < w)%nat -> at_ nn [i; j] = at_ test_nn [r i; j].

(** The surrogate answers every non-empty query about rows satisfying D; G x c v says that v is a right
    answer for class column c of test row x. *)
Definition answers (surrogate : nd Z -> nd Z -> result (nd R)) (test_nn : nd Z) (t w C : nat)
  (D : nat -> Prop) (G : nat -> nat -> R -> Prop) : Prop :=
  forall ix nn k r, (0 < k)%nat -> query test_nn ix nn k w r -> (forall i, (i < k)%nat -> (r i < t)%nat /\ D (r i)) ->
    exists P, surrogate ix nn = Ok P /\ shape P = [k; C] /\
      forall i c, (i < k)%nat -> (c < C)%nat -> G (r i) c (at_ P [i; c]).

(** The same for surrogates that also return variances. *)
Definition answers_uq (surrogate : nd Z -> nd Z -> result (nd R * nd R)) (test_nn : nd Z) (t w C : nat)
  (D : nat -> Prop) (G : nat -> nat -> R -> Prop) (H : nat -> R -> Prop) : Prop :=
  forall ix nn k r, (0 < k)%nat -> query test_nn ix nn k w r -> (forall i, (i < k)%nat -> (r i < t)%nat /\ D (r i)) ->
    exists P V, surrogate ix nn = Ok (P, V) /\ shape P = [k; C] /\ shape V = [k] /\
      (forall i c, (i < k)%nat -> (c < C)%nat -> G (r i) c (at_ P [i; c])) /\
      (forall i, (i < k)%nat -> H (r i) (at_ V [i])).

(** p is (the first position of) the largest of f 0 .. f (n-1). *)
Definition is_argmax (n : nat) (f : nat -> R) (p : nat) : Prop :=
  (p < n)%nat /\ (forall i, (i < n)%nat -> f i <= f p) /\ (forall i, (i < p)%nat -> f i < f p).

(** [mid] lies strictly inside the interval of half-width h around p. *)
Definition interval_contains (p h mid : R) : Prop := Rabs (p - mid) < h.

(** How many of the rows below t satisfy P. *)
Fixpoint how_many (t : nat) (P : nat -> bool) : nat :=
  match t with O => O | S t' => how_many t' P + (if P t' then 1 else 0) end.

(** Fraction of the rows satisfying P that satisfy Q. *)
Definition fraction (t : nat) (P Q : nat -> bool) : R :=
  INR (how_many t (fun x => P x && Q x)%bool) / INR (how_many t P).

(** Variances are a vector or a one-column matrix. *)
Definition var_at (v : nd R) (x : nat) : R := match shape v with [_] => at_ v [x] | _ => at_ v [x; O] end.

(** A report row: number of ambiguous samples, their accuracy (0 if there are none), the
    accuracy of the others (NaN if there are none). *)
Definition report_row (t : nat) (right m : nat -> bool) (row : num * num * num) : Prop :=
  let '(c1, c2, c3) := row in
  let amb := how_many t m in
  let sure := how_many t (fun x => negb (m x)) in
  c1 = Fin (INR amb) /\
  c2 = (if (amb =? 0)%nat then Fin 0 else Fin (INR (how_many t (fun x => m x && right x)%bool) / INR amb)) /\
  c3 = (if (sure =? 0)%nat then NaN else Fin (INR (how_many t (fun x => negb (m x) && right x)%bool) / INR sure)).


(** The documented cutoff grid: 1999 evenly spaced values from 0.01 to 20, both ends included. *)
Definition on_cutoff_grid (c : R) : Prop :=
  exists i : nat, (INR i <= 1998)%R /\ (c = 1 / 100 + INR i * (20 - 1 / 100) / 1998)%R.
