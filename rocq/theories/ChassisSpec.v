(** Specification vocabulary for optimization. *)
From Verif Require Import Base NdModel RSum LinAlgModel GPModel NoiseModel MuyGPSModel HyperModel
  HyperSpec NamedModel NamedSpec TensorModel KernelModel LossModel ChassisModel.
Local Open Scope string_scope.

(** [x] is [v] moved into [lo, hi]. *)
Definition clamped (lo hi v x : num) : Prop :=
  (nlt v lo /\ x = lo) \/ (nlt hi v /\ ~ nlt v lo /\ x = hi) \/ (~ nlt v lo /\ ~ nlt hi v /\ x = v).

(** A model whose parameter objects exist and are pairwise different objects. *)
Definition model_ok (s : store) (F : full) : Prop :=
  built (f_attr F) /\ m_noise (f_attr F) <> NNull /\
  (forall n, In n (declared (f_attr F)) -> (nm_loc n < st_next s)%nat) /\
  NoDup (map nm_loc (declared (f_attr F))).

(** Bounds of every optimizable parameter are ordered numbers. *)
Definition bounds_ok (s : store) (F : full) : Prop :=
  forall n, In n (declared (f_attr F)) -> p_fixed (st_cell s (nm_loc n)) = false ->
    let b := p_bounds (st_cell s (nm_loc n)) in
    fst b <> NaN /\ snd b <> NaN /\ ~ nlt (snd b) (fst b).

(** Parameter [n] of the input model and its counterpart [n'] in the result. *)
Definition optimized (s s' : store) (opt : dict num) (n n' : named) : Prop :=
  let p := st_cell s (nm_loc n) in
  let p' := st_cell s' (nm_loc n') in
  nm_name n' = nm_name n /\ (st_next s <= nm_loc n')%nat /\
  p_fixed p' = p_fixed p /\ p_bounds p' = p_bounds p /\
  if p_fixed p then p_val p' = p_val p
  else exists v, dget opt (nm_name n) = Some v /\
         clamped (fst (p_bounds p)) (snd (p_bounds p)) v (p_val p') /\
         ~ nlt (p_val p') (fst (p_bounds p)) /\ ~ nlt (snd (p_bounds p)) (p_val p').

(** The result of an optimization: a separate model with the optimized parameters. *)
Definition optimized_model (s : store) (F : full) (opt : dict num) (s' : store) (F' : full) : Prop :=
  (* no object of the input model changed *)
  (forall l, (l < st_next s)%nat -> st_cell s' l = st_cell s l) /\
  (* corresponding parameters *)
  Forall2 (optimized s s' opt) (declared (f_attr F)) (declared (f_attr F')) /\
  (* the result computes with its own parameters *)
  f_bound F' = f_attr F' /\
  (* everything else is the same *)
  f_metric F' = f_metric F /\ f_hetero F' = f_hetero F /\ f_kind F' = f_kind F /\
  f_scale F' = f_scale F.

(** ** The leave-one-out score of a model, from its public predictions *)
Section Score.
Variable ls : lsolver.
Variable slogdet : nat -> mat -> R * R.
Variable eps : R.
Variables (gamma : R -> R) (kv : R -> R -> R).

(** Minus the loss of model [F] (evaluated with its own stored hyperparameters) on the batch. *)
Definition loo_score (s : store) (F : full) (l : loss) (loss_kw : dict R)
  (draws : nat -> list nat) (pairwise crosswise nn_targets batch_targets : nd R) : result R :=
  let! Kin := call_kernel gamma kv s F pairwise [] in
  let! Kcross := call_kernel gamma kv s F crosswise [] in
  let! mean := gp_posterior_mean ls (gp_bound s F) Kin Kcross nn_targets None in
  match l with
  | CrossEntropy | Mse | PseudoHuber =>
      let! v := loss_call ls slogdet eps l [AArr mean; AArr batch_targets] loss_kw in Ok (- v)%R
  | Lool | LoolUnscaled | Looph =>
      let! scale := scale_value ls s F draws Kin nn_targets in
      let! variance := gp_opt_variance ls (gp_bound s F) Kin Kcross None in
      let! v := loss_call ls slogdet eps l
                  [AArr mean; AArr batch_targets; AArr variance; ANum scale] loss_kw in
      Ok (- v)%R
  end.
End Score.

(** The optimizable length scales are the first ones (always true for a scalar length scale, and
    when all or none of the dimensions are optimizable). *)
Definition leading_free (s : store) (ls : length_scale) : Prop :=
  match ls with
  | LSScalar _ => True
  | LSVector v => exists m, filter (free s) (v_elems v) = firstn m (v_elems v)
  | LSHier _ => False
  end.

Definition in_box (x : list R) (bounds : list (num * num)) : Prop :=
  Forall2 (fun r b => ~ nlt (Fin r) (fst b) /\ ~ nlt (snd b) (Fin r)) x bounds.
