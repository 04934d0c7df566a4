(** Vocabulary of the configuration theorems; independent of how the code computes. *)
From Verif Require Import Base ConfigModel.
Local Open Scope string_scope.

(** An environment variable, or its default. *)
Definition getenv (env : dict string) (var default : string) : string :=
  match dget env var with Some v => v | None => default end.

Definition is_backend (b : string) : Prop := b = "numpy" \/ b = "jax" \/ b = "torch" \/ b = "mpi".
Definition is_ftype (s : string) : Prop := s = "32" \/ s = "64".

(** The python package a backend needs. *)
Definition dependency_present (installed : string -> bool) (b : string) : Prop :=
  (b = "jax" -> installed "jax" = true) /\ (b = "torch" -> installed "torch" = true) /\
  (b = "mpi" -> installed "mpi4py" = true).

(** The words accepted for a boolean environment variable, up to case. *)
Definition boolean_word (s : string) : Prop :=
  List.In (lower s) ["y"; "yes"; "t"; "true"; "on"; "1"; "n"; "no"; "f"; "false"; "off"; "0"].
(** The ones that mean yes; an unset variable means no. *)
Definition env_says_yes (env : dict string) (var : string) : Prop :=
  exists v, dget env var = Some v /\ List.In (lower v) ["y"; "yes"; "t"; "true"; "on"; "1"].
Definition boolean_vars : list string :=
  ["MUYGPYS_JAX_ENABLED"; "MUYGPYS_GPU_ENABLED"; "MUYGPYS_HNSWLIB_ENABLED"; "MUYGPYS_MPI_ENABLED"; "MUYGPYS_TORCH_ENABLED"].
Definition valid_environment (env : dict string) : Prop :=
  forall var v, List.In var boolean_vars -> dget env var = Some v -> boolean_word v.

(** The functions of package [pkg] all come from backend [b]. *)
Definition from_backend (pkg b : string) (paths : list string) : Prop :=
  exists funs, paths = List.map (fun f => pkg ++ "." ++ b ++ "." ++ f) funs.

(** Operations mentioned anywhere in a program satisfy a condition on the option changed. *)
Fixpoint mentions_only (upd wth : string -> Prop) (o : uop) : Prop :=
  match o with
  | UUpdate n _ => upd n
  | UImport _ _ => True
  | UWith n _ body => wth n /\ fold_right and True (List.map (mentions_only upd wth) body)
  | UTry body => fold_right and True (List.map (mentions_only upd wth) body)
  end.
Definition program_only (upd wth : string -> Prop) (l : list uop) : Prop :=
  forall o, List.In o l -> mentions_only upd wth o.

(** The numpy constructors the library wraps, and how many positional arguments may precede dtype. *)
Definition positions_before_dtype : list (list string * nat) :=
  [(sig_array, 1%nat); (sig_eye, 3%nat); (sig_full, 2%nat); (sig_linspace, 5%nat);
   (sig_ones, 1%nat); (sig_zeros, 1%nat); (sig_arange, 3%nat)].
