(** Property theorems C35, C36, C57 and C58: hyperparameter optimization. *)
From Coq Require Import Lia Lra.
From Verif Require Import Base NdModel RSum LinAlgModel GPModel NoiseModel MuyGPSModel HyperModel
  HyperSpec NamedModel NamedSpec TensorModel KernelModel LossModel ChassisModel ChassisSpec
  ChassisProofs ChassisLemmas ObjectiveProofs HyperLemmas.
Local Open Scope string_scope.

(** * C35 *)

(** Whatever point [opt] an optimizer proposes for the optimizable parameters, rebuilding the model
    succeeds; the result is a separate model, every proposed value moved into the bounds, fixed
    parameters and bounds unchanged, and no object of the input model changed. *)
Theorem C35_new_model : forall s F names x0 bounds opt,
  model_ok s F -> bounds_ok s F ->
  get_opt_params s (f_attr F) = Ok (names, x0, bounds) ->
  (forall k, In k names -> exists v, dget opt k = Some v) ->
  exists s' F', new_muygps s F names bounds opt = Ok (s', F') /\ optimized_model s F opt s' F'.
Proof. exact new_muygps_spec. Qed.
Print Assumptions C35_new_model.

(** For finite bounds and a finite proposal the new value is the proposal clamped to [a, b]. *)
Theorem C35_clamped_value : forall s F opt s' F' n a b r,
  optimized_model s F opt s' F' -> In n (declared (f_attr F)) ->
  p_fixed (st_cell s (nm_loc n)) = false -> p_bounds (st_cell s (nm_loc n)) = (Fin a, Fin b) ->
  (a <= b)%R -> dget opt (nm_name n) = Some (Fin r) ->
  exists n', In n' (declared (f_attr F')) /\ nm_name n' = nm_name n /\
    p_val (st_cell s' (nm_loc n')) = Fin (Rmax a (Rmin b r)).
Proof. exact optimized_value. Qed.
Print Assumptions C35_clamped_value.

(** L-BFGS-B: for every minimizer, objective and point it returns. *)
Theorem C35_scipy : forall minimize s F f s' F',
  model_ok s F -> bounds_ok s F -> scipy_optimize minimize s F f = Ok (s', F') ->
  exists opt, optimized_model s F opt s' F'.
Proof. exact scipy_spec. Qed.
Print Assumptions C35_scipy.

Theorem C35_scipy_succeeds : forall minimize s F f names x0 bounds x,
  model_ok s F -> bounds_ok s F -> get_opt_params s (f_attr F) = Ok (names, x0, bounds) ->
  minimize (obj_fn_adapter f names) x0 bounds = Ok x -> List.length x = List.length names ->
  exists s' F', scipy_optimize minimize s F f = Ok (s', F').
Proof. exact scipy_total. Qed.
Print Assumptions C35_scipy_succeeds.

Theorem C35_bayes : forall maximize s F f verbose kw s' F',
  model_ok s F -> bounds_ok s F ->
  (forall names x0 bounds plan b, get_opt_params s (f_attr F) = Ok (names, x0, bounds) ->
     maximize f plan = Ok b -> forall k, In k names -> exists v, dget b k = Some v) ->
  bayes_optimize maximize s F f verbose kw = Ok (s', F') ->
  exists opt, optimized_model s F opt s' F'.
Proof. exact bayes_spec. Qed.
Print Assumptions C35_bayes.

(** Finding: a NaN proposal is stored as it is; it is not inside any bounds. *)
Theorem C35_nan_refuted : forall s F opt s' F' n,
  optimized_model s F opt s' F' -> In n (declared (f_attr F)) ->
  p_fixed (st_cell s (nm_loc n)) = false -> dget opt (nm_name n) = Some NaN ->
  exists n', In n' (declared (f_attr F')) /\ nm_name n' = nm_name n /\
    p_val (st_cell s' (nm_loc n')) = NaN.
Proof. exact optimized_nan. Qed.
Print Assumptions C35_nan_refuted.

(** The hypotheses are met by a Matern model with three length scales, one optimizable, and an
    optimizable noise. *)
Definition ex_full : full :=
  mkFull ex_model (model_make ex_store ex_model) L2 (mkNd [] (fun _ => 0%R)) (AnalyticScale 1) 1 1.
Example C35_ex : model_ok ex_store ex_full /\ bounds_ok ex_store ex_full /\
  get_opt_params ex_store (f_attr ex_full) =
    Ok (["length_scale1"; "noise"], [Fin 1; Fin 1], [(Fin 0, Fin 2); (Fin 0, Fin 2)]).
Proof.
  split; [|split; [|exact ex_opt]].
  - split; [exact ex_built|]. split; [discriminate|]. split.
    + intros n Hn. cbn in Hn. repeat destruct Hn as [<-|Hn]; cbn; try lia; destruct Hn.
    + cbn. repeat (constructor; [cbn; intuition discriminate|]). constructor.
  - intros n Hn Hf. cbn in Hn. repeat destruct Hn as [<-|Hn]; cbn in *; try discriminate; try destruct Hn;
      (repeat split; try discriminate; intros C; inversion C; lra).
Qed.

(** * C36 *)

(** A recognized keyword argument reaches exactly one of the two calls, unchanged. *)
Theorem C36_routed_once : forall s F verbose kw plan k v, bayes_plan s F verbose kw = Ok plan ->
  dget kw k = Some v ->
  (In k ["random_state"; "verbose"; "bounds_transformer"; "allow_duplicate_points"] ->
     dget (br_ctor plan) k = Some v /\ dget (br_maximize plan) k = None) /\
  (In k ["init_points"; "n_iter"; "acq"; "kappa"; "kappa_decay"; "kappa_decay_delay"; "xi"] ->
     dget (br_maximize plan) k = Some v /\ dget (br_ctor plan) k = None) /\
  (~ In k ["random_state"; "verbose"; "bounds_transformer"; "allow_duplicate_points"] ->
   ~ In k ["init_points"; "n_iter"; "acq"; "kappa"; "kappa_decay"; "kappa_decay_delay"; "xi"] ->
     dget (br_ctor plan) k = None /\ dget (br_maximize plan) k = None).
Proof. exact plan_once. Qed.
Print Assumptions C36_routed_once.

Theorem C36_defaults : forall s F verbose kw plan, bayes_plan s F verbose kw = Ok plan ->
  (dget kw "verbose" = None -> dget (br_ctor plan) "verbose" = Some (KInt (if verbose then 2 else 0)%Z)) /\
  (dget kw "allow_duplicate_points" = None ->
     dget (br_ctor plan) "allow_duplicate_points" = Some (KBool true)) /\
  (dget kw "init_points" = None -> dget (br_maximize plan) "init_points" = Some (KInt 5)) /\
  (dget kw "n_iter" = None -> dget (br_maximize plan) "n_iter" = Some (KInt 20)) /\
  (forall k, dget kw k = None ->
     ~ In k ["verbose"; "allow_duplicate_points"] -> dget (br_ctor plan) k = None) /\
  (forall k, dget kw k = None -> ~ In k ["init_points"; "n_iter"] -> dget (br_maximize plan) k = None).
Proof. exact plan_defaults. Qed.
Print Assumptions C36_defaults.

(** The search box is the parameters' bounds and the first point probed is the current value. *)
Theorem C36_box_and_probe : forall s F verbose kw plan, bayes_plan s F verbose kw = Ok plan ->
  exists names x0 bounds, get_opt_params s (f_attr F) = Ok (names, x0, bounds) /\
    br_pbounds plan = combine names bounds /\ br_probe plan = combine names x0.
Proof. intros s F verbose kw plan H. exact (proj2 (proj2 (plan_routing s F verbose kw plan H))). Qed.
Print Assumptions C36_box_and_probe.

Example C36_ex : exists plan, bayes_plan ex_store ex_full true [("kappa", KUser 7); ("foo", KUser 8)] = Ok plan /\
  br_maximize plan = [("kappa", KUser 7); ("init_points", KInt 5); ("n_iter", KInt 20)] /\
  br_ctor plan = [("verbose", KInt 2); ("allow_duplicate_points", KBool true)].
Proof. eexists. split; [reflexivity|]. split; reflexivity. Qed.

(** * C57 *)

(** For every point of the search box the value of the leave-one-out objective is minus the loss of
    the leave-one-out predictions of the model rebuilt with that point.  Partial: the optimizable
    length scales must come first (see C08) and, unless the scale is fixed, the noise must not be
    optimized (see C34). *)
Theorem C57_objective_is_score_partial : forall ls slogdet eps gamma kv s F names x0 bounds x,
  model_ok s F -> bounds_ok s F -> f_bound F = model_make s (f_attr F) ->
  leading_free s (k_ls (m_kernel (f_attr F))) ->
  get_opt_params s (f_attr F) = Ok (names, x0, bounds) ->
  List.length x = List.length names -> in_box x bounds ->
  (f_kind F = FixedScale \/ ~ In "noise" names) ->
  exists s' F', new_muygps s F names bounds (combine names (map Fin x)) = Ok (s', F') /\
    optimized_model s F (combine names (map Fin x)) s' F' /\
    forall l lkw draws P C T B,
      obj_fn ls slogdet eps gamma kv s F l lkw None draws P C T B (combine names x) =
      loo_score ls slogdet eps gamma kv s' F' l lkw draws P C T B.
Proof. exact objective_is_score. Qed.
Print Assumptions C57_objective_is_score_partial.

(** What scipy minimizes is minus that. *)
Theorem C57_scipy_minimizes_loss : forall f names x v,
  f (combine names x) = Ok v -> obj_fn_adapter f names x = Ok (- v)%R.
Proof. intros f names x v H. unfold obj_fn_adapter. rewrite H. reflexivity. Qed.
Print Assumptions C57_scipy_minimizes_loss.

(** RBF with an optimizable scalar length scale, fixed noise, analytic scale. *)
Definition ex57_model : model := mkModel (KRbf (LSScalar (mkNamed "length_scale" 1))) (NHomo (mkNamed "noise" 0)).
Definition ex57 : full :=
  mkFull ex57_model (model_make ex_store ex57_model) F2 (mkNd [] (fun _ => 0%R)) (AnalyticScale 1) 1 1.
Example C57_ex : model_ok ex_store ex57 /\ bounds_ok ex_store ex57 /\
  f_bound ex57 = model_make ex_store (f_attr ex57) /\
  leading_free ex_store (k_ls (m_kernel (f_attr ex57))) /\
  get_opt_params ex_store (f_attr ex57) = Ok (["length_scale"], [Fin 1], [(Fin 0, Fin 2)]) /\
  in_box [(3/2)%R] [(Fin 0, Fin 2)] /\ ~ In "noise" ["length_scale"].
Proof.
  repeat split; try (intros [H|[]]; discriminate).
  - constructor. reflexivity.
  - discriminate.
  - intros n Hn. cbn in Hn. repeat destruct Hn as [<-|Hn]; cbn; try lia; destruct Hn.
  - cbn. repeat (constructor; [cbn; intuition discriminate|]). constructor.
  - cbn in H. repeat destruct H as [<-|H]; cbn in *; try discriminate; try destruct H.
  - cbn in H. repeat destruct H as [<-|H]; cbn in *; try discriminate; try destruct H.
  - cbn in H. repeat destruct H as [<-|H]; cbn in *; try discriminate; try destruct H.
    intros C; inversion C; lra.
  - constructor; [|constructor]. split; intros C; inversion C; lra.
Qed.

(** * C58 *)

(** E epochs probe E*init_points points plus E(E+1)/2 previous optima (or just the starting point),
    take E*n_iter steps, and give a model within bounds, separate from the input. *)
Theorem C58_mini_batch_partial : forall s F aniso E pp verbose kw best bs ip ni names x0 bounds,
  model_ok s F -> bounds_ok s F -> get_opt_params s (f_attr F) = Ok (names, x0, bounds) ->
  (0 < E)%nat -> (aniso = false \/ E = 1%nat) ->
  dget kw "init_points" = Some (KInt ip) -> dget kw "n_iter" = Some (KInt ni) ->
  (forall e, (e < E)%nat -> best e = Ok (bs e)) ->
  (forall k, In k names -> exists v, dget (bs (E - 1)%nat) k = Some v) ->
  exists s' F' calls,
    mini_batch s F aniso E pp verbose kw best =
      Ok (s', F', (Z.of_nat E * ip + (if pp then Z.of_nat E * (Z.of_nat E + 1) / 2 else 1))%Z,
          (Z.of_nat E * ni)%Z, calls) /\
    calls = flat_map (fun e =>
      if pp then map (fun p => (e, p)) (combine names x0 :: map bs (seq 0 e))
      else match e with O => [(O, combine names x0)] | _ => [] end) (seq 0 E) /\
    optimized_model s F (bs (E - 1)%nat) s' F'.
Proof. exact mini_batch_spec. Qed.
Print Assumptions C58_mini_batch_partial.

(** Findings: leaving out init_points or n_iter (optional in the signature) raises KeyError; zero
    epochs raise; an anisotropic model never survives the first of several epochs. *)
Theorem C58_missing_init_points_refuted : forall s F aniso E pp verbose kw best names x0 bounds,
  get_opt_params s (f_attr F) = Ok (names, x0, bounds) -> dget kw "init_points" = None ->
  mini_batch s F aniso E pp verbose kw best = Err KeyError.
Proof. exact mini_batch_needs_keywords. Qed.
Print Assumptions C58_missing_init_points_refuted.

Theorem C58_missing_n_iter_refuted : forall s F aniso E pp verbose kw best names x0 bounds ip,
  get_opt_params s (f_attr F) = Ok (names, x0, bounds) ->
  dget kw "init_points" = Some (KInt ip) -> dget kw "n_iter" = None ->
  mini_batch s F aniso E pp verbose kw best = Err KeyError.
Proof. exact mini_batch_needs_n_iter. Qed.
Print Assumptions C58_missing_n_iter_refuted.

Theorem C58_zero_epochs_refuted : forall s F aniso pp verbose kw best r,
  mini_batch s F aniso 0 pp verbose kw best <> Ok r.
Proof. exact mini_batch_zero. Qed.
Print Assumptions C58_zero_epochs_refuted.

Theorem C58_anisotropy_refuted : forall s F E pp verbose kw best, (2 <= E)%nat ->
  forall r, mini_batch s F true E pp verbose kw best <> Ok r.
Proof. exact mini_batch_anisotropy. Qed.
Print Assumptions C58_anisotropy_refuted.

Example C58_ex : dget [("n_iter", KInt 20); ("init_points", KInt 5)] "init_points" = Some (KInt 5) /\
  (forall k, In k ["length_scale1"; "noise"] ->
     exists v, dget [("length_scale1", Fin 1); ("noise", Fin 0)] k = Some v).
Proof. split; [reflexivity|]. intros k [<-|[<-|[]]]; cbn; eauto. Qed.

(** * C56, continued *)
(** Consequence of accepting an iteration count of zero: with such a scale no training objective built on a likelihood loss has a (real)
    value, whatever the data and the hyperparameters. *)
Theorem C56_zero_count_no_objective_refuted : forall ls slogdet eps gamma kv s F down l kw mask draws pairwise crosswise nn_targets targets hyper v,
  f_kind F = DownSampleScale down 0 -> (l = Lool \/ l = LoolUnscaled \/ l = Looph) ->
  obj_fn ls slogdet eps gamma kv s F l kw mask draws pairwise crosswise nn_targets targets hyper <> Ok v.
Proof.
  intros ls slogdet eps gamma kv s F down l kw mask draws pairwise crosswise nn_targets targets hyper v FK HL E. unfold obj_fn in E.
  destruct (call_kernel gamma kv s F pairwise hyper) as [Kin|e]; cbn [bind] in E; [|discriminate].
  destruct (call_kernel gamma kv s F crosswise hyper) as [Kc|e]; cbn [bind] in E; [|discriminate].
  assert (SV : forall sc, scale_value ls s F draws Kin nn_targets <> Ok sc).
  { intros sc. unfold scale_value, scale_opt. change (gp_kind (gp_attr s F)) with (f_kind F). rewrite FK.
    unfold downsample_scale_opt. destruct (shape Kin) as [|b [|n [|n' [|]]]]; cbn [bind]; try discriminate.
    destruct (n <=? down)%nat; cbn [bind]; [discriminate|]. destruct (perturb (gp_noise (gp_attr s F)) Kin None); cbn; discriminate. }
  unfold predict_and_loss in E. destruct (gp_posterior_mean ls (gp_bound s F) Kin Kc nn_targets (dget hyper "noise")) as [p|e];
    [|destruct HL as [->|[->| ->]]; cbn in E; discriminate].
  destruct (scale_value ls s F draws Kin nn_targets) as [sc|e]; [exact (SV sc eq_refl)|].
  destruct HL as [->|[->| ->]]; cbn in E; discriminate.
Qed.
Print Assumptions C56_zero_count_no_objective_refuted.
