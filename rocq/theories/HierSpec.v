(** Specification vocabulary for hierarchical (knot) hyperparameters. *)
From Verif Require Import Base NdModel RSum LinAlgSpec GPSpec HyperModel NamedModel NamedSpec TensorSpec KernelModel FlowSpec
  PointwiseSpec HierModel.
Local Open Scope R_scope.

(** The current value of knot [i]: a keyword overrides the parameter object. *)
Definition knot_value (v : nvec) (cur : nat -> R) (kw : dict R) (i : nat) : R :=
  nth i (map (fun e => kw_or kw (nm_name e) (cur (nm_loc e))) (v_elems v)) 0.

(** [y] is the posterior mean at row [x] of [X] of a Gaussian process with covariance [k] and noise variance
    [noise], given [value i] at knot [i] (row [i] of [Z]). *)
Definition knot_mean (k : (nat -> R) -> R) (noise : R) (Z : nd R) (knots : nat) (value : nat -> R) (X : nd R) (x : nat) (y : R) : Prop :=
  kriging knots (plus_diag (kcov k Z Z) (fun _ => noise)) (fun j => kcov k X Z x j) value y.

(** Where the value of batch element [x] is found (a batch of one is returned as a 0-d array). *)
Definition batch_idx (b x : nat) : list nat := if (b =? 1)%nat then [] else [x].

(** Knot parameters as NamedVectorParameter builds them, [knots] of them; keyword overrides name a
    prefix of the knots, in order (possibly none). *)
Definition knots_ok (v : nvec) (name : string) (knots : nat) (kw : dict R) : Prop :=
  exists s0 srcs j, v = snd (vec_init s0 name srcs) /\ List.length srcs = knots /\ dict_ok kw /\ (j <= knots)%nat /\
    map fst (filter (fun e => String.prefix name (fst e)) kw) = map (fun i => (name ++ str_nat i)%string) (seq 0 j).

(** The higher-level kernel as a function of difference tensors. *)
Definition hk_diffs (hk : hkernel) (cur : nat -> R) : nd R -> result (nd R) := over_diffs (hk_def hk) (hk_call hk cur).
