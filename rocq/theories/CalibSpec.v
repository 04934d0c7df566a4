(** Specification vocabulary for the expected value of the scale estimate (C107). *)
From Verif Require Import Base NdModel RSum TensorSpec NoiseModel GPSpec FlowSpec BestSpec.
Local Open Scope R_scope.

Definition probability (S : nat) (pi : nat -> R) : Prop := rsum S pi = 1 /\ forall s, (s < S)%nat -> 0 <= pi s.

(** Random (b, n) targets [T] whose neighbourhoods have, each, the second moments [sc * K x]. *)
Definition target_moments (S : nat) (pi : nat -> R) (T : nat -> nd R) (b n : nat) (K : nat -> nat -> nat -> R) (sc : R) : Prop :=
  forall x i j, (x < b)%nat -> (i < n)%nat -> (j < n)%nat ->
    expect S pi (fun o => tgt (T o) x i * tgt (T o) x j) = sc * K x i j.

(** Latent values [f x] at the [M] test rows and observations [y a] at the [N] training rows with the second moments that the kernel [k]
    and the (uniform) noise [m] assign, times [sc]. *)
Record data_moments (S : nat) (pi : nat -> R) (f y : nat -> nat -> R) (k : (nat -> R) -> R) (m : noise_model) (sc : R)
  (test train : nd R) (M N : nat) : Prop := {
  dm_prob : probability S pi;
  dm_latent : forall x, (x < M)%nat -> expect S pi (fun o => f x o * f x o) = sc * kcov k test test x x;
  dm_cross : forall x a, (x < M)%nat -> (a < N)%nat -> expect S pi (fun o => f x o * y a o) = sc * kcov k test train x a;
  dm_obs : forall a c, (a < N)%nat -> (c < N)%nat ->
    expect S pi (fun o => y a o * y c o) = sc * (kcov k train train a c + if (a =? c)%nat then noise_at m None 0 0 else 0)
}.

(** Each row of [q] lists [w] different training rows. *)
Definition distinct_lists (b w : nat) (q : nat -> nat -> nat) : Prop :=
  forall x i j, (x < b)%nat -> (i < w)%nat -> (j < w)%nat -> q x i = q x j -> i = j.
