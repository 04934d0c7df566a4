(** Specification vocabulary for changes of coordinates of the features (C92). *)
From Verif Require Import Base NdModel RSum HyperModel NamedModel TensorModel TensorSpec KernelModel KernelSpec LibSpec WorkSpec.
Local Open Scope R_scope.

(** The second data sets are the first ones up to a similarity of ratio [c]: every distance between a test and a training row, and between
    two training rows, is multiplied by [c].  The number of features may differ. *)
Definition similar (c : R) (test train test' train' : nd R) (M N : nat) : Prop :=
  (forall x a, (x < M)%nat -> (a < N)%nat -> row_dist test' train' x a = c ^ 2 * row_dist test train x a) /\
  (forall a b, (a < N)%nat -> (b < N)%nat -> row_dist train' train' a b = c ^ 2 * row_dist train train a b).

(** Every feature [f] is measured in another unit and from another origin: multiplied by [s f], then shifted by [t f]. *)
Definition new_units (s t : nat -> R) (X X' : nd R) (n : nat) : Prop :=
  shape X' = shape X /\
  forall i f, (i < n)%nat -> (f < feature_count X)%nat -> feature X' i f = s f * feature X i f + t f.

(** The kernel is isotropic with length scale stored at [l]. *)
Definition isotropic (K : libkernel) (l : nat) : Prop :=
  match lk_def K with Iso _ n | DiffIso _ n => nm_loc n = l | Aniso _ _ => False end.

(** Same smoothness. *)
Definition same_smoothness (K : libkernel) (cur cur' : nat -> R) : Prop :=
  match K with LRbf _ => True | LMatern _ sm _ => cur' (nm_loc sm) = cur (nm_loc sm) end.
