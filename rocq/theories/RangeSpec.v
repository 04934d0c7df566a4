(** Specification vocabulary for C121: the range of predictions. *)
From Verif Require Import Base NdModel HyperModel NamedModel NamedSpec TensorModel TensorSpec KernelModel KernelSpec
  NoiseModel MuyGPSModel GPSpec PointwiseSpec LibSpec WorkSpec.
Local Open Scope R_scope.

(** The exponential kernel exp(-|s - t| / l) (Matern of smoothness 1/2) with length scale [l]. *)
Definition exponential_kernel (K : libkernel) (cur : nat -> R) (kkw : dict R) (l : R) : Prop :=
  (exists d sm p, K = LMatern d sm p /\ formula_for p = Half) /\ scale_of (lk_def K) cur kkw 0 = l.
