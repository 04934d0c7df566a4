(** Model of the optimization chassis (/repo/src/MuyGPyS/_src/optimize/chassis/numpy.py,
    optimize/chassis.py, optimize/objective.py, optimize/experimental/chassis.py).  The numerical
    optimizers (scipy L-BFGS-B, bayes_opt) are external: they are parameters of the model. *)
From Verif Require Import Base NdModel RSum LinAlgModel GPModel NoiseModel MuyGPSModel HyperModel
  NamedModel TensorModel KernelModel LossModel.
Local Open Scope string_scope.

(** A MuyGPS object together with the objects its closures captured when [_make] last ran
    (gp/muygps.py:95-126).  Python's [deepcopy] copies attributes but not closures, so the two can
    differ.  [f_hetero] is the value of a heteroscedastic noise tensor. *)
Record full := mkFull {
  f_attr : model;
  f_bound : model;
  f_metric : metric;
  f_hetero : nd R;
  f_kind : scale_kind;
  f_scale : R;
  f_var_scale : R
}.

(** gp/muygps.py:112-126 [_make]. *)
Definition full_make (s : store) (F : full) : full :=
  let m := model_make s (f_attr F) in
  mkFull m m (f_metric F) (f_hetero F) (f_kind F) (f_scale F) (f_scale F).

(** ** copy.deepcopy *)

(** Every object is duplicated: location [l] of the old heap gets the copy [l + st_next s].
    (Copying unreachable objects too is unobservable.) *)
Definition copy_store (s : store) : store :=
  mkStore (st_next s + st_next s)
    (fun l => if Nat.ltb l (st_next s) then st_cell s l else st_cell s (l - st_next s)).

Definition move_named (k : nat) (n : named) : named := mkNamed (nm_name n) (nm_loc n + k).
Definition move_vec (k : nat) (v : nvec) : nvec := mkVec (v_name v) (map (move_named k) (v_elems v)).
Definition move_ls (k : nat) (ls : length_scale) : length_scale :=
  match ls with
  | LSScalar n => LSScalar (move_named k n)
  | LSVector v => LSVector (move_vec k v)
  | LSHier v => LSHier (move_vec k v)
  end.
Definition move_kernel (k : nat) (K : kernel) : kernel :=
  match K with
  | KRbf ls => KRbf (move_ls k ls)
  | KMatern ls n c => KMatern (move_ls k ls) (move_named k n) c
  end.
Definition move_noise (k : nat) (z : noise_obj) : noise_obj :=
  match z with NHomo n => NHomo (move_named k n) | _ => z end.
Definition move_model (k : nat) (m : model) : model :=
  mkModel (move_kernel k (m_kernel m)) (move_noise k (m_noise m)).

(** [deepcopy(muygps)] (chassis/numpy.py:17): attributes are copied, closures still point to the
    original objects. *)
Definition deepcopy (s : store) (F : full) : store * full :=
  (copy_store s,
   mkFull (move_model (st_next s) (f_attr F)) (f_bound F) (f_metric F) (f_hetero F)
          (f_kind F) (f_scale F) (f_var_scale F)).

(** ** [_new_muygps] (chassis/numpy.py:15-34) *)

(** numpy.py:20-24. *)
Definition clamp (lb ub val : num) : num :=
  if num_ltb val lb then lb else if num_gtb val ub then ub else val.

(** A numeric assignment draws nothing from the random generator. *)
Definition no_env : env := mkEnv (fun lo _ => lo) None.

Definition assign_param (s : store) (n : named) (v : num) : result store :=
  let! p := param_set_val no_env (st_cell s (nm_loc n)) (PNum v) in
  Ok (st_put s (nm_loc n) p).

(** numpy.py:25-32.  [_update_knot_values] does not exist; the value setters of heteroscedastic
    and null noise reject a float (tensor.py:62-97) or miss [_bounds] (null.py:22-25). *)
Definition assign_one (s : store) (m : model) (key : string) (v : num) : result store :=
  if String.eqb key "noise" then
    match m_noise m with
    | NHomo n => assign_param s n v
    | NHetero => Err ValueError
    | NNull => Err AttributeError
    end
  else
    match String.index 0 "_knot" key with
    | Some loc =>
        match dget (kernel_dict (m_kernel m)) (String.substring 0 loc key) with
        | None => Err KeyError
        | Some _ => Err AttributeError
        end
    | None =>
        match dget (kernel_dict (m_kernel m)) key with
        | None => Err KeyError
        | Some n => assign_param s n v
        end
    end.

(** numpy.py:18-32, the loop. *)
Fixpoint assign_all (s : store) (m : model) (names : list string) (bounds : list (num * num))
  (opt : dict num) : result store :=
  match names with
  | [] => Ok s
  | key :: names' =>
      match bounds with
      | [] => Err IndexError
      | (lb, ub) :: bounds' =>
          match dget opt key with
          | None => Err KeyError
          | Some v =>
              let! s' := assign_one s m key (clamp lb ub v) in
              assign_all s' m names' bounds' opt
          end
      end
  end.

Definition new_muygps (s : store) (F : full) (names : list string) (bounds : list (num * num))
  (opt : dict num) : result (store * full) :=
  let (s1, F1) := deepcopy s F in
  let! s2 := assign_all s1 (f_attr F1) names bounds opt in
  Ok (s2, full_make s2 F1).

(** ** The objective (objective.py:20-118, optimize/chassis.py:118-196) *)

Definition noise_of (s : store) (F : full) (z : noise_obj) : noise_model :=
  match z with
  | NHomo n => HomoscedasticNoise (reals s (nm_loc n))
  | NHetero => HeteroscedasticNoise (f_hetero F)
  | NNull => NullNoise
  end.

(** What the prediction closures see, and what the scale optimizer sees ([muygps.noise] is read
    when called, scale.py:205-217). *)
Definition gp_bound (s : store) (F : full) : gp :=
  mkGp (noise_of s F (m_noise (f_bound F))) (f_kind F) (f_scale F) (f_var_scale F) kernel_Kout.
Definition gp_attr (s : store) (F : full) : gp :=
  mkGp (noise_of s F (m_noise (f_attr F))) (f_kind F) (f_scale F) (f_var_scale F) kernel_Kout.

Section Objective.
Variable ls : lsolver.
Variable slogdet : nat -> mat -> R * R.
Variable eps : R.
Variables (gamma : R -> R) (kv : R -> R -> R).

(** A user's call [muygps.kernel(diffs)] in heap [s]. *)
Definition call_kernel (s : store) (F : full) (diffs : nd R) (kw : dict R) : result (nd R) :=
  kernel_call gamma kv (f_metric F) (m_kernel (f_bound F)) s diffs kw.

(** A scale evaluation as used by a loss: a nan scale (see [downsample_scale_opt]) has no real
    value and is reported as ValueError. *)
Definition scale_value (s : store) (F : full) (draws : nat -> list nat) (Kin nn_targets : nd R)
  : result R :=
  let! o := scale_opt ls (gp_attr s F) draws Kin nn_targets in
  match o with Some v => Ok v | None => Err ValueError end.

(** [make_loo_crossval_fn(...)] applied to a hyperparameter dictionary (objective.py:86-104 with
    [OptimizeFn.make_obj_fn], chassis.py:177-196).  [batch_features] is only read by hierarchical
    kernels. *)
Definition obj_fn (s : store) (F : full) (l : loss) (loss_kw : dict R) (mask : option (list nat))
  (draws : nat -> list nat) (pairwise crosswise nn_targets batch_targets : nd R) (kw : dict R)
  : result R :=
  let! Kin := call_kernel s F pairwise kw in
  let! Kcross := call_kernel s F crosswise kw in
  predict_and_loss ls slogdet eps l
    (gp_posterior_mean ls (gp_bound s F) Kin Kcross nn_targets (dget kw "noise"))
    (gp_opt_variance ls (gp_bound s F) Kin Kcross (dget kw "noise"))
    (scale_value s F draws Kin nn_targets)
    batch_targets mask loss_kw.
End Objective.

(** ** The optimizers *)

(** [_obj_fn_adapter] (numpy.py:37-42). *)
Definition obj_fn_adapter (f : dict R -> result R) (names : list string) (x : list R) : result R :=
  let! v := f (combine names x) in Ok (- v)%R.

(** [_scipy_optimize] (numpy.py:57-81); [minimize f x0 bounds] is scipy.optimize.minimize's
    [optres.x]. *)
Definition scipy_optimize
  (minimize : (list R -> result R) -> list num -> list (num * num) -> result (list num))
  (s : store) (F : full) (f : dict R -> result R) : result (store * full) :=
  let! o := get_opt_params s (f_attr F) in
  let '(names, x0, bounds) := o in
  let! x := minimize (obj_fn_adapter f names) x0 bounds in
  if (List.length x <? List.length names)%nat then Err IndexError
  else new_muygps s F names bounds (combine names x).

(** ** Keyword routing *)

(** Values of keyword arguments: user supplied ones are opaque. *)
Inductive kwval := KUser (v : nat) | KInt (z : Z) | KBool (b : bool).

Definition optimizer_keys : list string :=
  ["random_state"; "verbose"; "bounds_transformer"; "allow_duplicate_points"].
Definition maximize_keys : list string :=
  ["init_points"; "n_iter"; "acq"; "kappa"; "kappa_decay"; "kappa_decay_delay"; "xi"].

Definition mem_key (k : string) (l : list string) : bool := existsb (String.eqb k) l.

(** [_bayes_get_kwargs(verbose, **kwargs)] (numpy.py:90-124). *)
Definition bayes_get_kwargs (verbose : bool) (kw : dict kwval) : dict kwval * dict kwval :=
  let o := filter (fun kv => mem_key (fst kv) optimizer_keys) kw in
  let o := setdefault o "verbose" (KInt (if verbose then 2 else 0)%Z) in
  let o := setdefault o "allow_duplicate_points" (KBool true) in
  (o, filter (fun kv => mem_key (fst kv) maximize_keys) kw).

(** The two calls of [_bayes_opt_optimize] (numpy.py:119-149): arguments of the constructor and
    of [maximize], and the point probed first. *)
Record bayes_run := mkBayes {
  br_pbounds : dict (num * num);
  br_ctor : dict kwval;
  br_probe : dict num;
  br_maximize : dict kwval
}.

Definition bayes_plan (s : store) (F : full) (verbose : bool) (kw : dict kwval) : result bayes_run :=
  let! o := get_opt_params s (f_attr F) in
  let '(names, x0, bounds) := o in
  let (ctor, mx) := bayes_get_kwargs verbose kw in
  let mx := setdefault mx "init_points" (KInt 5) in
  let mx := setdefault mx "n_iter" (KInt 20) in
  Ok (mkBayes (combine names bounds) ctor (combine names x0) mx).

(** [optimizer.max["params"]] is what bayes_opt returns for that run. *)
Definition bayes_optimize
  (maximize : (dict R -> result R) -> bayes_run -> result (dict num))
  (s : store) (F : full) (f : dict R -> result R) (verbose : bool) (kw : dict kwval)
  : result (store * full) :=
  let! o := get_opt_params s (f_attr F) in
  let '(names, x0, bounds) := o in
  let! plan := bayes_plan s F verbose kw in
  let! best := maximize f plan in
  new_muygps s F names bounds best.

(** ** Mini-batch chassis (optimize/experimental/chassis.py:45-307) *)

(** What the loop does to the outside: points probed per epoch, and the counters it returns. *)
Record mb_state := mkMb {
  mb_probed : list (dict num);      (* to_probe *)
  mb_calls : list (nat * dict num); (* optimizer.probe calls, with the epoch *)
  mb_total : Z                      (* total_pts_probed *)
}.

(** One epoch (chassis.py:207-285): [best e] is [optimizer.max["params"]] after epoch [e].
    [Anisotropy] has no [_length_scale_array] (chassis.py:271-277): AttributeError. *)
Definition mb_epoch (aniso probe_previous : bool) (epochs : nat) (best : nat -> result (dict num))
  (e : nat) (st : mb_state) : result mb_state :=
  let pts := if probe_previous then mb_probed st
             else if Nat.eqb e 0 then firstn 1 (mb_probed st) else [] in
  let calls := (mb_calls st ++ map (fun p => (e, p)) pts)%list in
  let total := (mb_total st + Z.of_nat (List.length pts))%Z in
  let! b := best e in
  let st' := mkMb (mb_probed st ++ [b])%list calls total in
  if aniso && (e <? epochs - 1)%nat then Err AttributeError else Ok st'.

Fixpoint mb_loop (aniso probe_previous : bool) (epochs : nat) (best : nat -> result (dict num))
  (todo e : nat) (st : mb_state) : result mb_state :=
  match todo with
  | O => Ok st
  | S k => let! st' := mb_epoch aniso probe_previous epochs best e st in
           mb_loop aniso probe_previous epochs best k (S e) st'
  end.

Definition as_int (v : kwval) : result Z := match v with KInt z => Ok z | _ => Err TypeError end.

(** The whole function up to [optimize_scale]: returns the new model, the number of points probed
    and of optimization steps it reports, and the probe calls it made.  [init_points] and [n_iter]
    are read from the keyword dictionary without a default (chassis.py:183-184); with zero epochs
    [optimizer.max] is empty (KeyError). *)
Definition mini_batch (s : store) (F : full) (aniso : bool) (epochs : nat) (probe_previous : bool)
  (verbose : bool) (kw : dict kwval) (best : nat -> result (dict num))
  : result (store * full * Z * Z * list (nat * dict num)) :=
  let! o := get_opt_params s (f_attr F) in
  let '(names, x0, bounds) := o in
  let (ctor, mx) := bayes_get_kwargs verbose kw in
  let! ip := match dget mx "init_points" with Some v => as_int v | None => Err KeyError end in
  let! ni := match dget mx "n_iter" with Some v => as_int v | None => Err KeyError end in
  let! st := mb_loop aniso probe_previous epochs best epochs 0
               (mkMb [combine names x0] [] (Z.of_nat epochs * ip)) in
  match epochs with
  | O => Err KeyError
  | S _ =>
      let! b := best (epochs - 1)%nat in
      let! r := new_muygps s F names bounds b in
      Ok (fst r, snd r, mb_total st, (Z.of_nat epochs * ni)%Z, mb_calls st)
  end.
