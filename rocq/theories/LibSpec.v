(** Specification vocabulary: predictions with the library's own kernels, from features to posterior. *)
From Verif Require Import Base NdModel RSum HyperModel NamedModel NamedSpec TensorModel TensorSpec KernelModel KernelSpec
  LinAlgSpec GPSpec NoiseModel FlowSpec PointwiseSpec.
Local Open Scope R_scope.

(** A library kernel: RBF or Matern (rbf.py, matern.py) over a deformation. *)
Inductive libkernel :=
| LRbf (d : deformation)
| LMatern (d : deformation) (sm : named) (p : param).
Definition lk_def (K : libkernel) : deformation := match K with LRbf d | LMatern d _ _ => d end.

(** Constructed as documented, for data with [F] features: matching metric, positive length scales, and a Matern
    smoothness fixed at one of the closed forms. *)
Definition lk_ok (K : libkernel) (F : nat) (cur : nat -> R) (kw : dict R) : Prop :=
  deformation_ok (lk_def K) F kw /\ (0 < F)%nat /\ positive_scales (lk_def K) F cur kw /\
  match K with
  | LRbf d => metric_of d = F2
  | LMatern d sm p => metric_of d = L2 /\ nm_name sm = "smoothness"%string /\ formula_for p <> General
  end.

(** Its documented covariance as a function of the difference of two points. *)
Definition lk_cov (gamma : R -> R) (kv : R -> R -> R) (K : libkernel) (F : nat) (cur : nat -> R) (kw : dict R) : (nat -> R) -> R :=
  match K with
  | LRbf d => rbf_cov d F cur kw
  | LMatern d sm p => matern_cov gamma kv p (kw_or kw "smoothness" (cur (nm_loc sm))) d F cur kw
  end.

(** The kernel functor applied to difference tensors. *)
Definition lk_call (gamma : R -> R) (kv : R -> R -> R) (K : libkernel) (cur : nat -> R) (kw : dict R) : nd R -> result (nd R) :=
  match K with
  | LRbf d => over_diffs d (fun D => rbf_call d cur D kw)
  | LMatern d sm p => over_diffs d (fun D => matern_call gamma kv d sm (set_matern_fn p) cur D kw)
  end.

(** The [w] neighbours [q x 0 .. q x (w-1)] are pairwise distinct points. *)
Definition distinct_rows (X : nd R) (w : nat) (q : nat -> nat) : Prop :=
  forall i j, (i < w)%nat -> (j < w)%nat -> i <> j ->
    exists f, (f < feature_count X)%nat /\ feature X (q i) f <> feature X (q j) f.

(** Positive noise, or nonnegative noise and distinct neighbours. *)
Definition well_posed (m : noise_model) (X : nd R) (t w : nat) (q : nat -> nat -> nat) : Prop :=
  forall x, (x < t)%nat ->
    (forall i, (i < w)%nat -> 0 < noise_at m None x i) \/
    ((forall i, (i < w)%nat -> 0 <= noise_at m None x i) /\ distinct_rows X w (q x)).
