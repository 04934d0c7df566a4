(** Model of gp/muygps.py, gp/mean.py, gp/variance.py, gp/fast_mean.py,
    gp/fast_precompute.py and gp/hyperparameter/scale.py: a univariate model whose kernel
    tensors are given (the kernel functor itself is modelled in KernelModel.v). *)
From Verif Require Import Base NdModel RSum LinAlgModel GPModel NoiseModel.
Local Open Scope R_scope.

(** The three scale classes (scale.py:118-293). *)
Inductive scale_kind :=
| FixedScale
| AnalyticScale (iteration_count : nat)
| DownSampleScale (down_count iteration_count : nat).

(** A MuyGPS object.  [gp_var_scale] is the value bound as default argument of the scaled
    variance closure when [_make] last ran (scale.py:94-109, [scale=self()]). *)
Record gp := mkGp {
  gp_noise : noise_model;
  gp_kind : scale_kind;
  gp_scale : R;
  gp_var_scale : R;
  gp_Kout : nd R
}.

(** gp/muygps.py:112-126 [_make] (the part that depends on mutable state: the scale value). *)
Definition make (g : gp) : gp :=
  mkGp (gp_noise g) (gp_kind g) (gp_scale g) (gp_scale g) (gp_Kout g).

(** scale.py:48-59 [_check_positive_float] on a float. *)
Definition check_positive_float (v : R) : result R :=
  if Rleb v 0 then Err ValueError else Ok v.

(** scale.py:64-73 [_set] (no [_make]). *)
Definition scale_set (g : gp) (v : R) : result gp :=
  let! v' := check_positive_float v in
  Ok (mkGp (gp_noise g) (gp_kind g) v' (gp_var_scale g) (gp_Kout g)).

(** gp/mean.py:17-37 with gp/noise perturb_fn: perturb the first argument, then call. *)
Definition gp_posterior_mean (ls : lsolver) (g : gp) (Kin Kcross targets : nd R) (noise : option R)
  : result (nd R) :=
  let! K := perturb (gp_noise g) Kin noise in posterior_mean ls K Kcross targets.

(** gp/variance.py:22-52: the opt_fn is unscaled, the call is scaled by the bound scale. *)
Definition gp_opt_variance (ls : lsolver) (g : gp) (Kin Kcross : nd R) (noise : option R)
  : result (nd R) :=
  let! K := perturb (gp_noise g) Kin noise in diagonal_variance ls K Kcross (gp_Kout g) 1.
Definition gp_posterior_variance (ls : lsolver) (g : gp) (Kin Kcross : nd R) : result (nd R) :=
  let! v := gp_opt_variance ls g Kin Kcross None in
  Ok (ndmap (Rmult (gp_var_scale g)) v).

(** gp/fast_precompute.py, gp/fast_mean.py. *)
Definition gp_fast_coefficients (ls : lsolver) (g : gp) (Kin targets : nd R) : result (nd R) :=
  let! K := perturb (gp_noise g) Kin None in fast_precompute ls K targets.
Definition gp_fast_posterior_mean (Kcross coeffs : nd R) : result (nd R) :=
  fast_posterior_mean Kcross coeffs.

(** One pass of the loop body of scale.py:210-216. *)
Definition analytic_step (ls : lsolver) (g : gp) (Kin targets : nd R) (s : R) : result R :=
  let! pK := perturb (gp_noise g) Kin None in
  let! s' := analytic_scale ls (ndmap (Rmult s) pK) targets in
  Ok (0.5 * (s + s')).

Fixpoint analytic_loop (ls : lsolver) (g : gp) (Kin targets : nd R) (fuel : nat) (s : R) : result R :=
  match fuel with
  | O => Ok s
  | S k => let! s' := analytic_step ls g Kin targets s in analytic_loop ls g Kin targets k s'
  end.

(** scale.py:205-217 [analytic_scale_opt_fn]: perturbs with the model's *stored* noise value
    (keyword arguments such as a candidate [noise] do not reach [perturb]);
    range(1, iteration_count) runs iteration_count - 1 times. *)
Definition analytic_scale_opt (ls : lsolver) (g : gp) (iteration_count : nat) (Kin targets : nd R)
  (noise : option R) : result R :=
  let! pK := perturb (gp_noise g) Kin None in
  let! s := analytic_scale ls pK targets in
  analytic_loop ls g Kin targets (iteration_count - 1) s.

(** Selecting positions along one axis (fancy indexing t[:, idx], t[:, :, idx]). *)
Definition take_axis1 {A} (t : nd A) (sel : list nat) : nd A :=
  match shape t with
  | b :: _ :: r => mkNd (b :: List.length sel :: r)
      (fun idx => match idx with x :: i :: l => at_ t (x :: nth i sel O :: l) | _ => at_ t idx end)
  | _ => t
  end.
Definition take_axis2 {A} (t : nd A) (sel : list nat) : nd A :=
  match shape t with
  | b :: c :: _ :: r => mkNd (b :: c :: List.length sel :: r)
      (fun idx => match idx with x :: y :: i :: l => at_ t (x :: y :: nth i sel O :: l) | _ => at_ t idx end)
  | _ => t
  end.

(** list.sort() on integers. *)
Fixpoint insert_nat (a : nat) (l : list nat) : list nat :=
  match l with [] => [a] | b :: l' => if (a <=? b)%nat then a :: l else b :: insert_nat a l' end.
Definition sort_nat (l : list nat) : list nat := fold_right insert_nat [] l.

(** np.median: middle element (or mean of the two middle ones) of the sorted list; the
    median of an empty list is nan ([None] here). *)
Fixpoint insert_R (a : R) (l : list R) : list R :=
  match l with [] => [a] | b :: l' => if Rleb a b then a :: l else b :: insert_R a l' end.
Definition sort_R (l : list R) : list R := fold_right insert_R [] l.
Definition median (l : list R) : option R :=
  let s := sort_R l in
  let n := List.length l in
  if (n =? 0)%nat then None
  else if Nat.odd n then Some (nth (n / 2) s 0)
  else Some ((nth (n / 2 - 1) s 0 + nth (n / 2) s 0) / 2).

(** scale.py:269-291 [downsample_analytic_scale_opt_fn]; [draws k] is what np.random.choice
    returned at iteration k.  [None] is nan: the median of no scales, or 0/0. *)
Definition downsample_scale_opt (ls : lsolver) (g : gp) (down_count iteration_count : nat)
  (draws : nat -> list nat) (Kin targets : nd R) : result (option R) :=
  match shape Kin with
  | [batch_count; nn_count; _] =>
    if (nn_count <=? down_count)%nat then Err ValueError
    else
      let! pK := perturb (gp_noise g) Kin None in
      let! scales := sequence (map (fun k =>
        let sampled := sort_nat (draws k) in
        let pK_down := take_axis2 (take_axis1 pK sampled) sampled in
        analytic_scale_unnormalized ls pK_down (take_axis1 targets sampled))
        (seq 0 iteration_count)) in
      Ok (match median scales with
          | Some m => if (down_count * batch_count =? 0)%nat then None
                      else Some (m / INR (down_count * batch_count))
          | None => None
          end)
  | _ => Err ValueError
  end.

(** scale.py:41-46 [_check_positive_integer]: only negative counts are rejected. *)
Definition check_positive_integer (c : Z) : result Z :=
  if (c <? 0)%Z then Err ValueError else Ok c.

(** scale.get_opt_fn(muygps)(Kin, targets). *)
Definition scale_opt (ls : lsolver) (g : gp) (draws : nat -> list nat) (Kin targets : nd R)
  : result (option R) :=
  match gp_kind g with
  | FixedScale => Ok (Some (gp_scale g))
  | AnalyticScale it => rmap Some (analytic_scale_opt ls g it Kin targets None)
  | DownSampleScale d it => downsample_scale_opt ls g d it draws Kin targets
  end.

(** gp/muygps.py:373-403 [optimize_scale]; [Kin] is self.kernel(pairwise_diffs).
    A nan scale passes the positivity check ([nan <= 0.0] is false); it is kept out of the
    real-valued state here and reported as ValueError (the only divergence). *)
Definition optimize_scale (ls : lsolver) (g : gp) (draws : nat -> list nat) (Kin targets : nd R)
  : result gp :=
  let! o := scale_opt ls g draws Kin targets in
  match o with
  | Some v => let! g' := scale_set g v in Ok (make g')
  | None => Err ValueError
  end.
