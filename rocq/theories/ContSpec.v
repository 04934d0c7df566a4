(** Specification vocabulary for the dependence of predictions (C104) and of the training objective (C105) on the hyperparameters. *)
From Verif Require Import Base NdModel RSum HyperModel NamedModel NamedSpec ChassisModel ChassisSpec TensorModel TensorSpec NoiseModel GPSpec
  FlowSpec WorkSpec LibSpec MuyGPSModel TrainSpec.
Local Open Scope R_scope.

(** All stored parameter values differ by less than [d]. *)
Definition values_close (cur cur' : nat -> R) (d : R) : Prop := forall l, Rabs (cur' l - cur l) < d.

(** The noise variances of the neighbours of the [M] test rows differ by less than [d]. *)
Definition noise_close (m m' : noise_model) (M n : nat) (d : R) : Prop :=
  forall x i, (x < M)%nat -> (i < n)%nat -> Rabs (noise_at m' None x i - noise_at m None x i) < d.

(** Two points of the same length whose coordinates differ by less than [d]. *)
Definition point_close (x y : list R) (d : R) : Prop := Forall2 (fun a b => Rabs (b - a) < d) x y.

(** All bounds are finite. *)
Definition finite_bounds (bounds : list (num * num)) : Prop := Forall (fun b => exists lo hi, b = (Fin lo, Fin hi)) bounds.

(** The scale that enters likelihood losses is positive: it is stored, or computed from neighbourhoods with a nonzero response. *)
Definition positive_scale (F : full) (targets : nd R) (b n : nat) (q : nat -> nat -> nat) : Prop :=
  match f_kind F with
  | FixedScale => 0 < f_scale F
  | _ => exists x i, (x < b)%nat /\ (i < n)%nat /\ at_ targets [q x i] <> 0
  end.
