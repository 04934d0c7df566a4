(** Specification vocabulary for C118: rigid motions of the sky and how they act on lensing observables. *)
From Verif Require Import Base NdModel RSum TensorSpec.
Local Open Scope R_scope.

(** An optional reflection of the second axis, then the rotation with cosine [mc] and sine [ms], then a translation. *)
Record motion := mkMotion { mc : R; ms : R; mflip : bool; mt1 : R; mt2 : R }.
Definition rigid (g : motion) : Prop := mc g ^ 2 + ms g ^ 2 = 1.
Definition msign (g : motion) : R := if mflip g then -1 else 1.
Definition move (g : motion) (x : nat -> R) : nat -> R := fun f =>
  match f with
  | O => mc g * x O - ms g * (msign g * x 1%nat) + mt1 g
  | _ => ms g * x O + mc g * (msign g * x 1%nat) + mt2 g
  end.

(** The observables (0: convergence, 1 and 2: the shears) of a moved potential: the convergence is a scalar, the shears turn by twice the
    angle and the second one changes its sign in a reflection.  Observable [o] of the moved potential at a moved point is the sum over [o'] of
    [turn g o o'] times observable [o'] of the potential at the point. *)
Definition turn (g : motion) (o o' : nat) : R :=
  match o, o' with
  | O, O => 1
  | 1%nat, 1%nat => mc g ^ 2 - ms g ^ 2
  | 1%nat, 2%nat => - (2 * mc g * ms g) * msign g
  | 2%nat, 1%nat => 2 * mc g * ms g
  | 2%nat, 2%nat => (mc g ^ 2 - ms g ^ 2) * msign g
  | _, _ => 0
  end.

(** [X'] has the [n] points of [X], moved. *)
Definition moved (g : motion) (X X' : nd R) (n : nat) : Prop :=
  shape X' = [n; 2]%nat /\ forall a f, (a < n)%nat -> (f < 2)%nat -> feature X' a f = move g (feature X a) f.
(** [Y'] has the observables [Y] of [n] points, turned. *)
Definition turned (g : motion) (Y Y' : nd R) (n : nat) : Prop :=
  shape Y' = [n; 3]%nat /\ forall a o, (a < n)%nat -> (o < 3)%nat -> at_ Y' [a; o] = rsum 3 (fun o' => turn g o o' * at_ Y [a; o']).

(** [X'] has the [n] points of [X], multiplied by [a]. *)
Definition stretched (a : R) (X X' : nd R) (n : nat) : Prop :=
  shape X' = [n; 2]%nat /\ forall i f, (i < n)%nat -> (f < 2)%nat -> feature X' i f = a * feature X i f.

(** The observables of a potential with second derivatives [h], and the matrix of the motion: the second derivatives of the moved potential
    at the moved point are M h M^T (M is orthogonal). *)
Definition lens (h : nat -> nat -> R) (o : nat) : R :=
  match o with O => (h 0%nat 0%nat + h 1%nat 1%nat) / 2 | 1%nat => (h 0%nat 0%nat - h 1%nat 1%nat) / 2 | _ => h 0%nat 1%nat end.
Definition frame (g : motion) (i j : nat) : R :=
  match i, j with
  | O, O => mc g
  | O, _ => - (ms g * msign g)
  | _, O => ms g
  | _, _ => mc g * msign g
  end.
