(** The documented covariances of the library kernels as functions of the difference of two points. *)
From Verif Require Import Base NdModel RSum HyperModel NamedModel NamedSpec TensorModel TensorSpec KernelModel KernelSpec.
Local Open Scope R_scope.

(** A kernel applied to raw differences: the isotropic deformation takes its metric when the difference tensors are
    built (isotropy.py:91-162), the others inside the call. *)
Definition over_diffs (d : deformation) (call : nd R -> result (nd R)) (diffs : nd R) : result (nd R) :=
  match d with Iso m _ => let! x := metric_call m diffs in call x | _ => call diffs end.

(** Gaussian of the squared scaled distance, and Matern of the scaled distance. *)
Definition rbf_cov (d : deformation) (F : nat) (cur : nat -> R) (kw : dict R) (v : nat -> R) : R :=
  exp (- scaled_sqdist F (scale_of d cur kw) v (fun _ => 0) / 2).
Definition matern_cov (gamma : R -> R) (kv : R -> R -> R) (p : param) (nu : R) (d : deformation) (F : nat) (cur : nat -> R)
  (kw : dict R) (v : nat -> R) : R :=
  matern_value gamma kv (formula_for p) nu (sqrt (scaled_sqdist F (scale_of d cur kw) v (fun _ => 0))).
