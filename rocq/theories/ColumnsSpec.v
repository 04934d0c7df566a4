(** Specification vocabulary for the order and the units of the feature columns (C99). *)
From Verif Require Import Base NdModel RSum HyperModel NamedModel NamedSpec TensorModel TensorSpec KernelModel KernelSpec LibSpec WorkSpec.
Local Open Scope R_scope.

(** Column [f] of [X] becomes column [p f] of [X'], multiplied by [a f] and shifted by [t f]. *)
Definition recoded (p : nat -> nat) (a t : nat -> R) (X X' : nd R) (n : nat) : Prop :=
  perm_on (feature_count X) p /\ shape X' = shape X /\
  forall i f, (i < n)%nat -> (f < feature_count X)%nat -> feature X' i (p f) = a f * feature X i f + t f.

(** The length scale of column [p f] is [a f] times the length scale column [f] had. *)
Definition recoded_scales (p : nat -> nat) (a : nat -> R) (F : nat) (d d' : deformation) (cur cur' : nat -> R) : Prop :=
  forall f, (f < F)%nat -> 0 < a f /\ scale_of d' cur' [] (p f) = a f * scale_of d cur [] f.

(** The candidate [x'] gives the length scale parameter number [p f] the value [a f] times that of number [f] in [x], and every other
    hyperparameter the same value. *)
Definition recoded_candidate (p : nat -> nat) (a : nat -> R) (elems : list named) (names : list string) (x x' : list R) : Prop :=
  (forall f e e', nth_error elems f = Some e -> nth_error elems (p f) = Some e' -> exists v,
     dget (combine names x) (nm_name e) = Some v /\ dget (combine names x') (nm_name e') = Some (a f * v)) /\
  (forall h, (forall e, In e elems -> nm_name e <> h) -> dget (combine names x') h = dget (combine names x) h).
