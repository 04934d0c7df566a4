(** Specification vocabulary for C115: the exponential kernel on one feature. *)
From Verif Require Import Base NdModel HyperModel NamedModel NamedSpec TensorModel TensorSpec KernelModel KernelSpec
  NoiseModel MuyGPSModel GPSpec PointwiseSpec LibSpec WorkSpec ChassisModel SimplerSpec.
Local Open Scope R_scope.

(** The position of row [i] of a data set with one feature. *)
Definition pos (X : nd R) (i : nat) : R := feature X i O.

(** Row [a] is the last of the [N] training rows at or before [z]. *)
Definition left_row (train : nd R) (N : nat) (z : R) (a : nat) : Prop :=
  (a < N)%nat /\ pos train a <= z /\ forall c, (c < N)%nat -> pos train c <= z -> pos train c <= pos train a.

(** Row [b] is the first of the [N] training rows after [z]. *)
Definition right_row (train : nd R) (N : nat) (z : R) (b : nat) : Prop :=
  (b < N)%nat /\ z < pos train b /\ forall c, (c < N)%nat -> z < pos train c -> pos train b <= pos train c.

(** Test row [x] has neighbours on both sides, however ties between distances are broken. *)
Definition straddled (test train : nd R) (N x n : nat) : Prop :=
  forall q, nearest_rows test train N x n q ->
    (exists j, (j < n)%nat /\ pos train (q j) <= pos test x) /\ (exists j, (j < n)%nat /\ pos test x < pos train (q j)).

(** Test row [x] is after all, or before all training rows. *)
Definition after_all (test train : nd R) (N x : nat) : Prop := forall c, (c < N)%nat -> pos train c <= pos test x.
Definition before_all (test train : nd R) (N x : nat) : Prop := forall c, (c < N)%nat -> pos test x < pos train c.

(** A model with the exponential kernel exp(-|s - t| / l) (Matern of smoothness 1/2) of length scale [l], and no noise. *)
Definition exponential (g : gp) (K : libkernel) (cur : nat -> R) (kkw : dict R) (l : R) : Prop :=
  (exists d sm p, K = LMatern d sm p /\ formula_for p = Half) /\ scale_of (lk_def K) cur kkw 0 = l /\
  (gp_noise g = NullNoise \/ gp_noise g = HomoscedasticNoise 0).

(** ** Training *)
(** Row [c] has neighbours [q 0], ..., [q (n-1)] on both sides. *)
Definition loo_straddled (train : nd R) (n c : nat) (q : nat -> nat) : Prop :=
  (exists j, (j < n)%nat /\ pos train (q j) < pos train c) /\ (exists j, (j < n)%nat /\ pos train c < pos train (q j)).

(** Row [c] is the first or the last of the [N] rows. *)
Definition extreme_row (train : nd R) (N c : nat) : Prop :=
  (forall a, (a < N)%nat -> pos train a <= pos train c) \/ (forall a, (a < N)%nat -> pos train c <= pos train a).

(** A trainable model without noise: homoscedastic noise fixed at 0 (training does not support NullNoise, C14). *)
Definition noiseless (s : store) (F : full) : Prop :=
  exists z, m_noise (f_attr F) = NHomo z /\ p_fixed (st_cell s (nm_loc z)) = true /\ p_val (st_cell s (nm_loc z)) = Fin 0.
