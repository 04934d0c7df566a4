(** Model of _src/config.py, of the parts of the bundled configuration class _src/jaxconfig.py
    that it uses, of _src/util.py:9-36 (backend dispatch) and of _src/math/meta.py
    (default dtypes).  When jax is installed the base class is jax's own; the model is of the
    bundled copy, which config.py:10-12 falls back to. *)
From Coq Require Import Ascii.
From Verif Require Import Base.
Local Open Scope string_scope.
Local Open Scope list_scope.

(** Values a configuration option can hold. *)
Inductive cval := CStr (s : string) | CBool (b : bool) | CNone.

(** The interpreter's configuration: [Config.values] (jaxconfig.py:82), the attributes of
    [MuyGPySState] (config.py:42-54) keyed by option name, the thread-local overrides
    (jaxconfig.py:485), and, for each package imported so far, where its functions were
    taken from. *)
Record cfg := mkCfg {
  c_values : dict cval;
  c_state : dict cval;
  c_tls : dict cval;
  c_loaded : dict (list string)
}.

(** str.lower() on ASCII. *)
Definition lower_ascii (c : ascii) : ascii :=
  let n := nat_of_ascii c in
  if ((65 <=? n) && (n <=? 90))%nat then ascii_of_nat (n + 32) else c.
Fixpoint lower (s : string) : string :=
  match s with EmptyString => EmptyString | String c s' => String (lower_ascii c) (lower s') end.

Definition mem (s : string) (l : list string) : bool := existsb (String.eqb s) l.

(** jaxconfig.py:43-61 [bool_env], with a default of False. *)
Definition bool_env (env : dict string) (var : string) : result bool :=
  match dget env var with
  | None => Ok false
  | Some v =>
    let v := lower v in
    if mem v ["y"; "yes"; "t"; "true"; "on"; "1"] then Ok true
    else if mem v ["n"; "no"; "f"; "false"; "off"; "0"] then Ok false
    else Err ValueError
  end.

(** jaxconfig.py:92-103 [update] without absl; the hook stores the value in the state
    (e.g. config.py:72-73).  Values are not validated. *)
Definition c_update (c : cfg) (name : string) (v : cval) : result cfg :=
  match dget (c_values c) name with
  | None => Err AttributeError
  | Some _ => Ok (mkCfg (dset (c_values c) name v) (dset (c_state c) name v) (c_tls c) (c_loaded c))
  end.

(** jaxconfig.py:120-129 [add_option]: defines the option and calls the hook on its default. *)
Definition add_option (c : cfg) (name : string) (v : cval) : cfg :=
  mkCfg (dset (c_values c) name v) (dset (c_state c) name v) (c_tls c) (c_loaded c).

(** jaxconfig.py:217-295 [define_bool_state]; the environment variable is the name in upper case. *)
Definition define_bool (env : dict string) (c : cfg) (name var : string) : result cfg :=
  let! b := bool_env env var in Ok (add_option c name (CBool b)).

(** jaxconfig.py:297-352 [define_enum_state]. *)
Definition define_enum (env : dict string) (c : cfg) (name var : string) (values : list string) (default : string) : result cfg :=
  let d := match dget env var with Some v => v | None => default end in
  if mem d values then Ok (add_option c name (CStr d)) else Err ValueError.

Definition backends : list string := ["numpy"; "jax"; "torch"; "mpi"].
Definition ftypes : list string := ["32"; "64"].

(** The option that records whether a backend's dependencies are present. *)
Definition flag_of (backend : string) : option string :=
  if String.eqb backend "jax" then Some "muygpys_jax_enabled"
  else if String.eqb backend "torch" then Some "muygpys_torch_enabled"
  else if String.eqb backend "mpi" then Some "muygpys_mpi_enabled"
  else None.

(** config.py:226-239: the check made once, when config.py is imported. *)
Definition check_backend (c : cfg) : result unit :=
  match dget (c_state c) "muygpys_backend" with
  | Some (CStr b) =>
    match flag_of b with
    | Some f => match dget (c_state c) f with Some (CBool false) => Err ValueError | _ => Ok tt end
    | None => Ok tt
    end
  | _ => Ok tt
  end.

Definition empty_cfg : cfg := mkCfg [] [] [] [].

(** config.py:66-262: importing MuyGPyS.  [installed] says which of the packages jax, hnswlib,
    mpi4py and torch can be imported; [accelerated] is
    [_default_backend() in ["gpu", "tpu"]].  (jax's own x64 switch, 261-262, is not
    modelled.) *)
Definition import_muygpys (env : dict string) (installed : string -> bool) (accelerated : bool) : result cfg :=
  let! c := define_bool env empty_cfg "muygpys_jax_enabled" "MUYGPYS_JAX_ENABLED" in
  let! c := define_bool env c "muygpys_gpu_enabled" "MUYGPYS_GPU_ENABLED" in
  let! c := (if installed "jax" then
               let! c := c_update c "muygpys_jax_enabled" (CBool true) in
               if accelerated then c_update c "muygpys_gpu_enabled" (CBool true) else Ok c
             else
               let! c := c_update c "muygpys_jax_enabled" (CBool false) in
               c_update c "muygpys_gpu_enabled" (CBool false)) in
  let! c := define_bool env c "muygpys_hnswlib_enabled" "MUYGPYS_HNSWLIB_ENABLED" in
  let! c := c_update c "muygpys_hnswlib_enabled" (CBool (installed "hnswlib")) in
  let! c := define_bool env c "muygpys_mpi_enabled" "MUYGPYS_MPI_ENABLED" in
  let! c := c_update c "muygpys_mpi_enabled" (CBool (installed "mpi4py")) in
  let! c := define_bool env c "muygpys_torch_enabled" "MUYGPYS_TORCH_ENABLED" in
  let! c := c_update c "muygpys_torch_enabled" (CBool (installed "torch")) in
  let! c := define_enum env c "muygpys_backend" "MUYGPYS_BACKEND" backends "numpy" in
  let! _ := check_backend c in
  define_enum env c "muygpys_ftype" "MUYGPYS_FTYPE" ftypes "64".

(** ** Programs that use the configuration *)
(** [UImport pkg funs]: import a package whose __init__ calls
    [_collect_implementation(pkg, *funs)]; [UWith]: the context managers returned by
    define_bool_state and define_enum_state (only the enum ones validate); [UTry]: catch any
    exception of the body. *)
Inductive uop :=
| UUpdate (name : string) (v : cval)
| UImport (pkg : string) (funs : list string)
| UWith (name : string) (v : cval) (body : list uop)
| UTry (body : list uop).

(** util.py:9-21 [_collect_implementation] and 31-32 [_collect_functions]; [importable] says
    whether the backend's module can be imported. *)
Definition collect (importable : string -> string -> bool) (c : cfg) (pkg : string) (funs : list string)
  : result (list string) :=
  match dget (c_state c) "muygpys_backend" with
  | Some (CStr b) =>
    if mem b backends then
      if importable pkg b then Ok (map (fun f => pkg ++ "." ++ b ++ "." ++ f)%string funs) else Err ModuleNotFoundError
    else Err ValueError
  | _ => Err ValueError
  end.

(** jaxconfig.py:330-341 [validate]; bool options have no validation. *)
Definition validate (name : string) (v : cval) : bool :=
  if String.eqb name "muygpys_backend" then match v with CStr s => mem s backends | CNone => true | _ => false end
  else if String.eqb name "muygpys_ftype" then match v with CStr s => mem s ftypes | CNone => true | _ => false end
  else true.

Fixpoint dremove {V} (d : dict V) (k : string) : dict V :=
  match d with [] => [] | (k', v) :: d' => if String.eqb k' k then dremove d' k else (k', v) :: dremove d' k end.

(** jaxconfig.py:464-472: entering the context. *)
Definition with_enter (c : cfg) (name : string) (v : cval) : cfg :=
  mkCfg (c_values c) (dset (c_state c) name v) (dset (c_tls c) name v) (c_loaded c).
(** jaxconfig.py:474-482: leaving it. *)
Definition with_exit (prev : option cval) (c : cfg) (name : string) : cfg :=
  match prev with
  | None => mkCfg (c_values c) (dset (c_state c) name CNone) (dremove (c_tls c) name) (c_loaded c)
  | Some p => mkCfg (c_values c) (dset (c_state c) name p) (dset (c_tls c) name p) (c_loaded c)
  end.

(** One operation: the configuration afterwards and the exception raised, if any. *)
Section run.
  Variable importable : string -> string -> bool.
  Fixpoint uexec (c : cfg) (o : uop) {struct o} : cfg * option err :=
    let run := fix run (c : cfg) (l : list uop) {struct l} : cfg * option err :=
      match l with
      | [] => (c, None)
      | o :: l' => match uexec c o with (c', None) => run c' l' | r => r end
      end in
    match o with
    | UUpdate n v => match c_update c n v with Ok c' => (c', None) | Err e => (c, Some e) end
    | UImport p fs =>
      match dget (c_loaded c) p with
      | Some _ => (c, None)     (* already in sys.modules *)
      | None => match collect importable c p fs with
                | Ok l => (mkCfg (c_values c) (c_state c) (c_tls c) (dset (c_loaded c) p l), None)
                | Err e => (c, Some e)
                end
      end
    | UWith n v body =>
      if validate n v then
        let prev := dget (c_tls c) n in
        let (c', e) := run (with_enter c n v) body in (with_exit prev c' n, e)
      else (c, Some ValueError)
    | UTry body => (fst (run c body), None)
    end.
  (** A program is a list of operations, stopped by the first uncaught exception. *)
  Fixpoint urun (c : cfg) (l : list uop) : cfg * option err :=
    match l with
    | [] => (c, None)
    | o :: l' => match uexec c o with (c', None) => urun c' l' | r => r end
    end.
End run.

(** [config.<name>] (jaxconfig.py:287-289): the thread-local override or the stored value. *)
Definition read_option (c : cfg) (name : string) : option cval :=
  match dget (c_tls c) name with Some v => Some v | None => dget (c_values c) name end.

(** ** Default dtypes (_src/math/meta.py:9-26, 40-44) *)
Section calls.
  Variable V : Type.
  (** A Python call: positional and keyword arguments. *)
  Record call := mkCall { k_args : list V; k_kwargs : dict V }.

  (** meta.py:9-17 [fix_type]: the call the wrapper makes. *)
  Definition fix_type (dtype : V) (k : call) : call :=
    mkCall (k_args k) (setdefault (k_kwargs k) "dtype" dtype).

  (** Python's binding of a call to a signature (parameter names in order). *)
  Fixpoint bind_pos (sig : list string) (args : list V) : option (dict V * list string) :=
    match args, sig with
    | [], _ => Some ([], sig)
    | _ :: _, [] => None
    | a :: args', n :: sig' =>
      match bind_pos sig' args' with Some (d, rest) => Some ((n, a) :: d, rest) | None => None end
    end.
  Definition bind_call (sig : list string) (k : call) : result (dict V) :=
    match bind_pos sig (k_args k) with
    | None => Err TypeError
    | Some (d, rest) =>
      if forallb (fun kv => mem (fst kv) rest) (k_kwargs k) then Ok (d ++ k_kwargs k) else Err TypeError
    end.
End calls.
Arguments mkCall {V}.
Arguments k_args {V}.
Arguments k_kwargs {V}.
Arguments fix_type {V}.
Arguments bind_call {V}.
Arguments bind_pos {V}.

(** The numpy signatures of the constructors wrapped in _src/math/numpy.py:98-105. *)
Definition sig_array := ["object"; "dtype"].
Definition sig_eye := ["N"; "M"; "k"; "dtype"].
Definition sig_full := ["shape"; "fill_value"; "dtype"].
Definition sig_linspace := ["start"; "stop"; "num"; "endpoint"; "retstep"; "dtype"; "axis"].
Definition sig_ones := ["shape"; "dtype"; "order"].
Definition sig_zeros := ["shape"; "dtype"; "order"].
Definition sig_arange := ["start"; "stop"; "step"; "dtype"].
Definition sig_diagonal := ["a"; "offset"; "axis1"; "axis2"].

(** meta.py:39-43 [set_type] ([None] when the configuration holds neither value). *)
Definition set_type {T} (c : cfg) (t64 t32 : T) : option T :=
  match dget (c_state c) "muygpys_ftype" with
  | Some (CStr s) => if String.eqb s "64" then Some t64 else if String.eqb s "32" then Some t32 else None
  | _ => None
  end.
