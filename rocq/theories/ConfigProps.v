(** Property theorems C50 and C51: backend selection and default dtypes. *)
From Verif Require Import Base ConfigModel ConfigSpec ConfigProofs.
Local Open Scope string_scope.
Local Open Scope list_scope.

(** * C50 *)
(** Importing succeeds exactly with valid variables and a backend whose dependency is present;
    every other import raises ValueError. *)
Theorem C50_import : forall env installed acc,
  let b := getenv env "MUYGPYS_BACKEND" "numpy" in
  let f := getenv env "MUYGPYS_FTYPE" "64" in
  (valid_environment env /\ is_backend b /\ dependency_present installed b /\ is_ftype f /\
   exists c, import_muygpys env installed acc = Ok c /\
     dget (c_state c) "muygpys_backend" = Some (CStr b) /\ dget (c_state c) "muygpys_ftype" = Some (CStr f) /\
     dget (c_state c) "muygpys_jax_enabled" = Some (CBool (installed "jax")) /\
     dget (c_state c) "muygpys_hnswlib_enabled" = Some (CBool (installed "hnswlib")) /\
     dget (c_state c) "muygpys_mpi_enabled" = Some (CBool (installed "mpi4py")) /\
     dget (c_state c) "muygpys_torch_enabled" = Some (CBool (installed "torch")) /\
     c_values c = c_state c /\ c_tls c = [] /\ c_loaded c = []) \/
  (~ (valid_environment env /\ is_backend b /\ dependency_present installed b /\ is_ftype f) /\
   import_muygpys env installed acc = Err ValueError).
Proof. exact import_char. Qed.
Print Assumptions C50_import.

(** In every history of updates, imports, context managers and caught exceptions, each
    imported package takes all its functions from a single backend ... *)
Theorem C50_one_backend_per_package : forall importable l c c' e, c_loaded c = [] -> urun importable c l = (c', e) ->
  forall p fns, dget (c_loaded c') p = Some fns ->
    exists b, is_backend b /\ importable p b = true /\ from_backend p b fns.
Proof. exact history_one_backend. Qed.
Print Assumptions C50_one_backend_per_package.
(** ... which no later operation changes. *)
Theorem C50_imports_are_final : forall importable l c c' e p fns, dget (c_loaded c) p = Some fns ->
  urun importable c l = (c', e) -> dget (c_loaded c') p = Some fns.
Proof. exact history_stable. Qed.
Print Assumptions C50_imports_are_final.
(** If the backend is chosen before anything is imported and not touched afterwards, every
    package uses that backend. *)
Theorem C50_same_backend : forall importable l c c' e b, c_loaded c = [] ->
  dget (c_state c) "muygpys_backend" = Some (CStr b) ->
  program_only (fun n => n <> "muygpys_backend") (fun n => n <> "muygpys_backend") l -> urun importable c l = (c', e) ->
  forall p fns, dget (c_loaded c') p = Some fns -> is_backend b /\ from_backend p b fns.
Proof. exact history_same_backend. Qed.
Print Assumptions C50_same_backend.
(** Without context managers, the state consulted is the configured value. *)
Theorem C50_state_is_configuration_partial : forall importable l c c' e, c_values c = c_state c -> c_tls c = [] ->
  program_only (fun _ => True) (fun _ => False) l -> urun importable c l = (c', e) ->
  forall n, read_option c' n = dget (c_state c') n.
Proof. exact history_consistent. Qed.
Print Assumptions C50_state_is_configuration_partial.

(** Switching after import is not checked: a backend that is not enabled, or that does not
    exist, is accepted. *)
Theorem C50_update_unchecked_refuted : forall env installed acc c v, import_muygpys env installed acc = Ok c ->
  exists c', c_update c "muygpys_backend" v = Ok c' /\ dget (c_state c') "muygpys_backend" = Some v.
Proof.
  intros env installed acc c v H.
  destruct (import_char env installed acc) as [(_ & _ & _ & _ & c0 & E & G)|[_ E]]; [|congruence].
  rewrite H in E. injection E as <-. destruct G as (G1 & _ & _ & _ & _ & _ & GV & _).
  unfold c_update. rewrite GV, G1. eexists. split; [reflexivity|]. cbn [c_state]. rewrite dget_dset. reflexivity.
Qed.
Print Assumptions C50_update_unchecked_refuted.

(** Switching between two imports mixes backends. *)
Definition all_present (_ : string) : bool := true.
Definition start : cfg := match import_muygpys [] all_present false with Ok c => c | Err _ => empty_cfg end.
Theorem C50_mixed_backends_refuted : exists l c', urun (fun _ _ => true) start l = (c', None) /\
  dget (c_loaded c') "MuyGPyS._src.gp.noise" = Some ["MuyGPyS._src.gp.noise.numpy._homoscedastic_perturb"] /\
  dget (c_loaded c') "MuyGPyS._src.gp.kernels" = Some ["MuyGPyS._src.gp.kernels.jax._rbf_fn"].
Proof.
  exists [UImport "MuyGPyS._src.gp.noise" ["_homoscedastic_perturb"]; UUpdate "muygpys_backend" (CStr "jax");
          UImport "MuyGPyS._src.gp.kernels" ["_rbf_fn"]].
  eexists. repeat split.
Qed.
Print Assumptions C50_mixed_backends_refuted.

(** Leaving the library's own context manager forgets the backend: every later import raises,
    although the configuration still reads the old backend. *)
Theorem C50_context_manager_refuted : forall importable c b v pkg funs, dget (c_values c) "muygpys_backend" = Some (CStr b) ->
  c_tls c = [] -> c_loaded c = [] -> is_backend v ->
  let r := urun importable c [UWith "muygpys_backend" (CStr v) []; UImport pkg funs] in
  snd r = Some ValueError /\ read_option (fst r) "muygpys_backend" = Some (CStr b).
Proof.
  intros importable c b v pkg funs HV HT HL Hv. cbv zeta. cbn [urun]. rewrite uexec_with.
  assert (E : validate "muygpys_backend" (CStr v) = true) by (cbn [validate String.eqb Ascii.eqb Bool.eqb]; apply mem_backends; auto).
  rewrite E. cbn [urun]. rewrite HT. cbn [dget with_exit]. cbn [uexec with_enter c_loaded c_state c_values c_tls].
  rewrite HL. cbn [dget]. unfold collect. cbn [c_state]. rewrite dget_dset. cbn.
  split; auto. unfold read_option. cbn [c_tls c_values]. rewrite HT. cbn. auto.
Qed.
Print Assumptions C50_context_manager_refuted.

(** The MUYGPYS_*_ENABLED variables have no effect beyond being checked. *)
Theorem C50_enabled_variables_ignored_refuted : forall installed acc v, boolean_word v -> installed "torch" = true ->
  exists c, import_muygpys [("MUYGPYS_TORCH_ENABLED", v)] installed acc = Ok c /\
    dget (c_state c) "muygpys_torch_enabled" = Some (CBool true).
Proof.
  intros installed acc v Hv Ht.
  destruct (import_char [("MUYGPYS_TORCH_ENABLED", v)] installed acc) as [(_ & _ & _ & _ & c & E & G)|[N _]].
  - exists c. split; auto. destruct G as (_ & _ & _ & _ & _ & G & _). rewrite G, Ht. reflexivity.
  - exfalso. apply N. split; [|split; [left; reflexivity|split; [repeat split; discriminate|right; reflexivity]]].
    intros var w Hin Hd. cbn in Hin. destruct Hin as [<-|[<-|[<-|[<-|[<-|[]]]]]]; cbn in Hd; try discriminate. injection Hd as <-. exact Hv.
Qed.
Print Assumptions C50_enabled_variables_ignored_refuted.

(** The GPU flag is the exception: with jax present it is set by an accelerator or by the
    environment variable, and without jax it is off. *)
Theorem C50_gpu_flag : forall env installed acc c, import_muygpys env installed acc = Ok c ->
  exists g, dget (c_state c) "muygpys_gpu_enabled" = Some (CBool g) /\
    (g = true <-> installed "jax" = true /\ (acc = true \/ env_says_yes env "MUYGPYS_GPU_ENABLED")).
Proof. exact import_gpu. Qed.
Print Assumptions C50_gpu_flag.

(** The context managers of the two enumerated options refuse a string that is not one of the
    option's values, before running anything and leaving the configuration as it was. *)
Theorem C50_context_manager_validates : forall importable c n s body rest,
  (n = "muygpys_backend" /\ ~ is_backend s \/ n = "muygpys_ftype" /\ ~ is_ftype s) ->
  urun importable c (UWith n (CStr s) body :: rest) = (c, Some ValueError).
Proof.
  intros importable c n s body rest H. apply with_refused; destruct H as [[-> H]|[-> H]]; auto; try discriminate; eauto.
Qed.
Print Assumptions C50_context_manager_validates.
(** A listed value is accepted and is what the body of the context reads. *)
Theorem C50_context_manager_accepts : forall importable c n s,
  (n = "muygpys_backend" /\ is_backend s \/ n = "muygpys_ftype" /\ is_ftype s) ->
  read_option (with_enter c n (CStr s)) n = Some (CStr s) /\ dget (c_state (with_enter c n (CStr s))) n = Some (CStr s) /\
  forall body, snd (uexec importable c (UWith n (CStr s) body)) = snd (urun importable (with_enter c n (CStr s)) body).
Proof.
  intros importable c n s H. split; [|split].
  - unfold read_option, with_enter. cbn [c_tls]. rewrite dget_dset, String.eqb_refl. reflexivity.
  - unfold with_enter. cbn [c_state]. rewrite dget_dset, String.eqb_refl. reflexivity.
  - intros body. rewrite with_accepted.
    + destruct (urun importable (with_enter c n (CStr s)) body). reflexivity.
    + intros ->. destruct H as [[_ H]|[H _]]; [eauto|discriminate].
    + intros ->. destruct H as [[H _]|[_ H]]; [discriminate|eauto].
Qed.
Print Assumptions C50_context_manager_accepts.

Example C50_sat :
  (exists c, import_muygpys [("MUYGPYS_BACKEND", "torch"); ("MUYGPYS_FTYPE", "32"); ("MUYGPYS_GPU_ENABLED", "Off")] all_present false = Ok c /\
     dget (c_state c) "muygpys_backend" = Some (CStr "torch")) /\
  import_muygpys [("MUYGPYS_BACKEND", "torch")] (fun _ => false) false = Err ValueError /\
  import_muygpys [("MUYGPYS_BACKEND", "cupy")] all_present false = Err ValueError /\
  import_muygpys [("MUYGPYS_FTYPE", "16")] all_present false = Err ValueError /\
  c_loaded start = [] /\ dget (c_state start) "muygpys_backend" = Some (CStr "numpy") /\ c_values start = c_state start /\ c_tls start = [] /\
  program_only (fun n => n <> "muygpys_backend") (fun n => n <> "muygpys_backend")
    [UWith "muygpys_ftype" (CStr "32") [UImport "p" ["f"]]; UTry [UUpdate "nope" CNone]; UImport "q" ["g"]] /\
  boolean_word "Off".
Proof.
  split; [eexists; split; reflexivity|]. repeat (split; [reflexivity|]). split; [|cbn; auto 20].
  intros o [<-|[<-|[<-|[]]]]; cbn; repeat split; discriminate.
Qed.

(** * C51 *)
(** A dtype keyword given by the caller reaches the function unchanged. *)
Theorem C51_explicit_keyword : forall V (dtype d : V) (k : call V), dget (k_kwargs k) "dtype" = Some d -> fix_type dtype k = k.
Proof. exact @fix_type_explicit. Qed.
Print Assumptions C51_explicit_keyword.
(** Without one, the configured dtype is bound and all other arguments are as given. *)
Theorem C51_default : forall V sig (dtype : V) (k : call V) d, NoDup sig -> bind_call sig k = Ok d ->
  dget d "dtype" = None -> List.In "dtype" sig ->
  bind_call sig (fix_type dtype k) = Ok (d ++ [("dtype", dtype)]) /\
  dget (d ++ [("dtype", dtype)]) "dtype" = Some dtype /\
  forall n, n <> "dtype" -> dget (d ++ [("dtype", dtype)]) n = dget d n.
Proof. exact @fix_type_default. Qed.
Print Assumptions C51_default.
(** The configured float type. *)
Theorem C51_float_type : forall T env installed acc c (t64 t32 : T), import_muygpys env installed acc = Ok c ->
  set_type c t64 t32 = Some (if String.eqb (getenv env "MUYGPYS_FTYPE" "64") "64" then t64 else t32).
Proof.
  intros T env installed acc c t64 t32 H.
  destruct (import_char env installed acc) as [(_ & _ & _ & F & c0 & E & G)|[_ E]]; [|congruence].
  rewrite H in E. injection E as <-. destruct G as (_ & G & _). unfold set_type. rewrite G.
  destruct F as [->| ->]; reflexivity.
Qed.
Print Assumptions C51_float_type.
(** A dtype passed positionally clashes with the wrapper's keyword. *)
Theorem C51_positional_dtype_refuted : forall V sig (dtype : V) (k : call V) d0 rest, NoDup sig ->
  bind_pos sig (k_args k) = Some (d0, rest) -> List.In "dtype" (map fst d0) -> dget (k_kwargs k) "dtype" = None ->
  bind_call sig (fix_type dtype k) = Err TypeError.
Proof. exact @fix_type_positional. Qed.
Print Assumptions C51_positional_dtype_refuted.
(** [diagonal] has no dtype parameter, so the wrapped function raises on every call. *)
Theorem C51_diagonal_refuted : forall V (dtype : V) (k : call V), bind_call sig_diagonal (fix_type dtype k) = Err TypeError.
Proof. intros. apply fix_type_unsupported. cbn. intuition discriminate. Qed.
Print Assumptions C51_diagonal_refuted.

(** Which positional calls survive: up to the arguments that precede dtype in numpy's signature
    all go through with the default dtype appended; one more, and the call raises. *)
Theorem C51_positional_arguments : forall V sig n (dtype : V) (args : list V), List.In (sig, n) positions_before_dtype ->
  ((List.length args <= n)%nat -> bind_call sig (fix_type dtype (mkCall args [])) =
     Ok (combine sig args ++ [("dtype", dtype)])) /\
  ((n < List.length args)%nat -> bind_call sig (fix_type dtype (mkCall args [])) = Err TypeError).
Proof. exact @fix_type_positions. Qed.
Print Assumptions C51_positional_arguments.

Example C51_sat :
  (forall s, List.In s [sig_array; sig_eye; sig_full; sig_linspace; sig_ones; sig_zeros; sig_arange] ->
     NoDup s /\ List.In "dtype" s) /\
  bind_call sig_full (mkCall [1; 2] []) = Ok [("shape", 1); ("fill_value", 2)] /\
  bind_call sig_full (fix_type 64 (mkCall [1; 2] [])) = Ok [("shape", 1); ("fill_value", 2); ("dtype", 64)] /\
  bind_call sig_full (fix_type 64 (mkCall [1; 2; 32] [])) = Err TypeError /\
  bind_call sig_full (fix_type 64 (mkCall [1; 2] [("dtype", 32)])) = Ok [("shape", 1); ("fill_value", 2); ("dtype", 32)].
Proof.
  split; [|repeat split].
  intros s Hs. cbn in Hs.
  repeat destruct Hs as [<-|Hs]; try contradiction; split; try (cbn; tauto);
    repeat constructor; cbn; intuition discriminate.
Qed.
