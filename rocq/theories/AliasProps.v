(** C45: sharing of mutable state between kernels and models. *)
From Coq Require Import Lia Lra.
From Verif Require Import Base HyperModel NamedModel AliasModel AliasSpec AliasProofs AliasProofs2.
Local Open Scope string_scope.
Local Open Scope list_scope.

(** In every reachable state, an operation that is not addressed to an object the model was built from leaves everything
    the model's behaviour depends on unchanged.  Missing from the full claim: objects that came from default arguments are
    shared (see the refutations). *)
Theorem C45_step_frame_partial o op m : reachable o -> (m < List.length (o_models o))%nat -> ~ addresses o op m ->
  model_obs (astep o op) m = model_obs o m.
Proof.
  intros R L N. destruct (reachable_inv _ R) as [own I]. destruct (nth_error_ex _ _ L) as [mm E].
  exact (step_frame own o op m mm I E N).
Qed.
Print Assumptions C45_step_frame_partial.

(** The same along every history. *)
Theorem C45_history_frame_partial o ops m : reachable o -> (m < List.length (o_models o))%nat ->
  (forall before op after, ops = before ++ op :: after -> ~ addresses (arun before o) op m) ->
  model_obs (arun ops o) m = model_obs o m.
Proof. exact (history_frame ops o m). Qed.
Print Assumptions C45_history_frame_partial.

(** Two models built from different kernel, deformation and scale objects: no sequence of updates made through one
    (set_params on its kernel, optimize_scale) changes the other. *)
Theorem C45_independent_partial o ops m1 m2 : reachable o ->
  (m1 < List.length (o_models o))%nat -> (m2 < List.length (o_models o))%nat -> separately_built o m1 m2 ->
  (forall before op after, ops = before ++ op :: after -> update_of (arun before o) op m1) ->
  model_obs (arun ops o) m2 = model_obs o m2.
Proof. exact (separate_history ops o m1 m2). Qed.
Print Assumptions C45_independent_partial.

(** Optimization never changes any model that existed before it, and the model it returns shares no kernel,
    deformation, noise, scale or noise array with any of them. *)
Theorem C45_optimize_copies o m e vals : reachable o ->
  let o' := astep o (NOptimized m e vals) in
  let new := List.length (o_models o) in
  (forall m', (m' < new)%nat -> model_obs o' m' = model_obs o m') /\
  (List.length (o_models o') <> new ->
   List.length (o_models o') = S new /\
   forall m', (m' < new)%nat -> separately_built o' new m' /\ (forall z, uses_noise o' new z -> ~ uses_noise o' m' z) /\
    (forall z a, uses_noise o' new z -> nth_error (o_noises o') z = Some (ZHetero a) ->
       (List.length (o_arrays o) <= a)%nat /\ forall z', uses_noise o' m' z' -> nth_error (o_noises o') z' <> Some (ZHetero a))).
Proof.
  intros R o' new. split; [|exact (optimized_fresh o m e vals R)].
  intros m' L. apply C45_step_frame_partial; auto.
Qed.
Print Assumptions C45_optimize_copies.

(** In every reachable state the function a kernel evaluates reads exactly the hyperparameters it reports, in order. *)
Theorem C45_bound_reads_reported o i : reachable o -> (i < List.length (o_kernels o))%nat ->
  exists reported fn, kernel_obs o i = Some (reported, map snd reported, fn).
Proof.
  intros R L. destruct (nth_error_ex _ _ L) as [k E]. pose proof (reachable_bound _ R _ _ E) as B.
  unfold kernel_obs. rewrite E, B. fold (kobj_params o k).
  exists (map (fun n => (nm_name n, st_cell (o_params o) (nm_loc n))) (kobj_params o k)), (k_fn k).
  rewrite !map_map. reflexivity.
Qed.
Print Assumptions C45_bound_reads_reported.

(** [kernel.set_params] with keyword arguments [kw] does what it says, in every reachable state: the arguments are applied in order up to the first
    name the kernel does not have (which raises [KeyError]); each hyperparameter named in that part becomes a copy of its
    argument, every other one keeps its value, and the function the kernel evaluates reads the new values. *)
Theorem C45_set_params_effect o i kw pre rest reported bound fn : reachable o -> kernel_obs o i = Some (reported, bound, fn) ->
  NoDup (map fst kw) -> kw = pre ++ rest ->
  (forall name, In name (map fst pre) -> In name (map fst reported)) ->
  (forall name rhs rest', rest = (name, rhs) :: rest' -> ~ In name (map fst reported)) ->
  exists reported', kernel_obs (astep o (USetParams i kw)) i = Some (reported', map snd reported', fn) /\
    reported' = map (fun np => (fst np, match dget pre (fst np) with Some rhs => rhs | None => snd np end)) reported.
Proof.
  intros R Ko ND Ekw Kn Un. unfold kernel_obs in Ko. destruct (nth_error (o_kernels o) i) as [k|] eqn:E; [|discriminate].
  fold (kobj_params o k) in Ko. injection Ko as <- <- <-. rewrite map_map in Kn, Un. cbn [fst] in Kn, Un.
  destruct (set_params_effect o i k kw pre rest R E ND Ekw Kn Un) as (Ek & Ep & Ec). cbv zeta in *.
  pose proof (reachable_bound _ R _ _ E) as B. unfold kernel_obs. rewrite Ek. fold (kobj_params (astep o (USetParams i kw)) k).
  rewrite Ep, B. fold (kobj_params o k).
  exists (map (fun n => (nm_name n, st_cell (o_params (astep o (USetParams i kw))) (nm_loc n))) (kobj_params o k)).
  split; [rewrite !map_map; reflexivity|]. rewrite map_map. apply map_ext_in. intros n Hn. rewrite (Ec n Hn). reflexivity.
Qed.
Print Assumptions C45_set_params_effect.

(** [model.optimize_scale(...)] sets the model's scale object to the optimized value, unless it is a FixedScale, marks it
    trained, and the model's variance function uses that value from then on; in every reachable state. *)
Theorem C45_optimize_scale_effect o m k z bz sc bs v : reachable o -> model_obs o m = Some (k, z, bz, Some sc, bs) ->
  let used := if sc_fixed sc then sc_val sc else v in
  exists k' z' bz', model_obs (astep o (UOptScale m v)) m = Some (k', z', bz', Some (mkS used true (sc_fixed sc)), used).
Proof.
  intros R Mo used. unfold model_obs in Mo. destruct (nth_error (o_models o) m) as [mm|] eqn:Em; [|discriminate].
  injection Mo as _ _ _ Es _. destruct (opt_scale_effect o m mm sc v R Em Es) as (mm' & E1 & E2 & E3 & E4). cbv zeta in *.
  unfold model_obs. rewrite E1, E3, E4, E2. eexists _, _, _. reflexivity.
Qed.
Print Assumptions C45_optimize_scale_effect.

(** In every reachable state, a new Matern kernel and a new RBF kernel with their default deformations do not share it: [set_params] on one
    leaves the other alone. *)
Theorem C45_default_kernels_separate o sm kw : reachable o -> (match sm with Some l => l < st_next (o_params o) | None => True end)%nat ->
  let n := List.length (o_kernels o) in let o' := arun [NMatern sm None; NRbf None] o in
  List.length (o_kernels o') = (n + 2)%nat /\
  kernel_obs (astep o' (USetParams n kw)) (S n) = kernel_obs o' (S n) /\
  kernel_obs (astep o' (USetParams (S n) kw)) n = kernel_obs o' n.
Proof. exact (default_kernels_separate o sm kw). Qed.
Print Assumptions C45_default_kernels_separate.

(** What the default arguments are: hyperparameters 1/2 and 1, noise 0, all fixed, and a fixed scale 1. *)
Theorem C45_import_defaults : let fixed v := mkParam (Fin v) (Fin 0, Fin 0) true in
  (exists fn, kernel_obs (arun [NMatern None None] import_objs) 0 =
     Some ([("length_scale", fixed 1%R); ("smoothness", fixed (1/2)%R)], [fixed 1%R; fixed (1/2)%R], Some fn) /\ fn = set_matern_fn (fixed (1/2)%R)) /\
  kernel_obs (arun [NRbf None] import_objs) 0 = Some ([("length_scale", fixed 1%R)], [fixed 1%R], None) /\
  exists k sc, model_obs (arun [NRbf None; NModel 0 None None] import_objs) 0 =
     Some (k, Some (Some (fixed 0%R), None), Some (Some (fixed 0%R), None), Some sc, Fin 1) /\ sc_val sc = Fin 1 /\ sc_fixed sc = true.
Proof. split; [|split]; lazy -[IZR Rdiv set_matern_fn]; repeat eexists. Qed.
Print Assumptions C45_import_defaults.

(** ** The full claim is false: default arguments are shared objects. *)
Definition two_default_rbf := [NRbf None; NRbf None].
Theorem C45_default_deformation_refuted : exists ops kw,
  let o := arun ops import_objs in
  List.length (o_kernels o) = 2 /\ kernel_obs (astep o (USetParams 0 kw)) 1 <> kernel_obs o 1.
Proof.
  exists two_default_rbf, [("length_scale", mkParam (Fin 2) (Fin 0, Fin 0) true)]. split; [reflexivity|].
  lazy -[IZR Rdiv set_matern_fn]. intros H. injection H. intros. lra.
Qed.
Print Assumptions C45_default_deformation_refuted.

(** Two models with the default scale: optimizing the scale of one marks the other's scale as trained. *)
Theorem C45_default_scale_refuted : exists ops v,
  let o := arun ops import_objs in
  (exists m1 m2, nth_error (o_models o) 0 = Some m1 /\ nth_error (o_models o) 1 = Some m2 /\ mo_kernel m1 <> mo_kernel m2) /\
  model_obs (astep o (UOptScale 0 v)) 1 <> model_obs o 1.
Proof.
  exists [NMatern None None; NRbf None; NModel 0 None None; NModel 1 None None], (Fin 5). split.
  - eexists _, _. repeat split. lazy -[IZR Rdiv set_matern_fn]. discriminate.
  - lazy -[IZR Rdiv set_matern_fn]. intros H. discriminate H.
Qed.
Print Assumptions C45_default_scale_refuted.

(** A heteroscedastic noise model reads the caller's array: a later write by the caller changes the model. *)
Theorem C45_noise_array_refuted : exists ops l,
  let o := arun ops import_objs in
  List.length (o_models o) = 1 /\ model_obs (astep o (UArray 0 l)) 0 <> model_obs o 0.
Proof.
  exists [NRbf None; NArray [Fin 1]; NHetero_ 0; NModel 0 (Some 1) None], [Fin 2]. split; [reflexivity|].
  lazy -[IZR Rdiv set_matern_fn]. intros H. injection H. intros. lra.
Qed.
Print Assumptions C45_noise_array_refuted.

(** ** The hypotheses are met: two models with their own deformation and scale, one of them Matern. *)
Definition separate_ops : list aop :=
  [NIso 1; NIso 3; NRbf (Some 2); NMatern None (Some 3); NScale false (Fin 1); NScale true (Fin 1);
   NModel 0 None (Some 1); NModel 1 None (Some 2)].
Example separate_met : let o := arun separate_ops import_objs in
  reachable o /\ List.length (o_models o) = 2 /\ separately_built o 0 1 /\
  update_of o (USetParams 0 [("length_scale", mkParam (Fin 2) (Fin 0, Fin 0) true)]) 0 /\
  model_obs (astep o (USetParams 0 [("length_scale", mkParam (Fin 2) (Fin 0, Fin 0) true)])) 0 <> model_obs o 0.
Proof.
  cbn zeta. split; [exists separate_ops; reflexivity|]. split; [reflexivity|]. split; [|split].
  - split; [|split].
    + intros k [x [A <-]] [y [B C]]. lazy in A, B. injection A as <-. injection B as <-. discriminate C.
    + intros k (x & x' & A & A' & <-) (y & y' & B & B' & C). lazy in A, B. injection A as <-. injection B as <-.
      lazy in A', B'. injection A' as <-. injection B' as <-. discriminate C.
    + intros k [x [A <-]] [y [B C]]. lazy in A, B. injection A as <-. injection B as <-. discriminate C.
  - eexists. split; reflexivity.
  - lazy -[IZR Rdiv set_matern_fn]. intros H. injection H. intros. lra.
Qed.
(** An optimization that does return a new model. *)
Example optimize_met : let o := arun separate_ops import_objs in
  List.length (o_models (astep o (NOptimized 0 (mkEnv (fun a _ => a) None) []))) <> List.length (o_models o).
Proof. lazy -[IZR Rdiv set_matern_fn]. discriminate. Qed.
(** [set_params] with a known and then an unknown name on the Matern kernel, and [optimize_scale] on both models. *)
Definition set_kw : dict param := [("smoothness", fixed_param (Fin (5/2))); ("nu", fixed_param (Fin 1)); ("length_scale", fixed_param (Fin 3))].
Example effects_met : let o := arun separate_ops import_objs in
  (exists reported bound fn, kernel_obs o 1 = Some (reported, bound, fn) /\ map fst reported = ["length_scale"; "smoothness"]) /\
  set_kw = firstn 1 set_kw ++ skipn 1 set_kw /\
  (exists k z bz sc bs, model_obs o 0 = Some (k, z, bz, Some sc, bs) /\ sc_fixed sc = false) /\
  (exists k z bz sc bs, model_obs o 1 = Some (k, z, bz, Some sc, bs) /\ sc_fixed sc = true).
Proof.
  cbn zeta. split; [|split; [reflexivity|split]]; lazy -[IZR Rdiv set_matern_fn]; repeat eexists.
Qed.
