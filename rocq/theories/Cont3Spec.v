(** Specification vocabulary for the dependence of predictions on the hyperparameters, Bessel smoothness included (C104). *)
From Verif Require Import Base NdModel RSum HyperModel NamedModel NamedSpec TensorModel TensorSpec KernelModel KernelSpec PointwiseSpec LibSpec.
Local Open Scope R_scope.

(** What is used about scipy.special.gamma and scipy.special.kv: on positive arguments Gamma is continuous and does not vanish, and
    K_nu(x) is jointly continuous in its order and its argument. *)
Definition continuous_special (gamma : R -> R) (kv : R -> R -> R) : Prop :=
  (forall nu, 0 < nu -> gamma nu <> 0 /\ continuity_pt gamma nu) /\
  forall nu x, 0 < nu -> 0 < x -> forall eps, 0 < eps -> exists d, 0 < d /\
    forall nu' x', Rabs (nu' - nu) < d -> Rabs (x' - x) < d -> Rabs (kv nu' x' - kv nu x) < eps.

(** A library kernel with usable parameter values, whatever its smoothness. *)
Definition kernel_usable (K : libkernel) (F : nat) (cur : nat -> R) : Prop :=
  deformation_ok (lk_def K) F [] /\ (0 < F)%nat /\ positive_scales (lk_def K) F cur [] /\
  match K with
  | LRbf d => metric_of d = F2
  | LMatern d sm p => metric_of d = L2 /\ nm_name sm = "smoothness"%string /\ 0 < cur (nm_loc sm)
  end.
