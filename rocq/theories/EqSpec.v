(** Specification vocabulary for model equality: what a user sees of a model. *)
From Verif Require Import Base NdModel HyperModel NamedModel NamedSpec EqModel.
Local Open Scope string_scope.

(** The parameters a kernel declares: its length scale(s), then the smoothness of a Matern kernel. *)
Definition kernel_declares (k : kernel) : list named :=
  match k with
  | KRbf ls => ls_elems ls
  | KMatern ls n _ => (ls_elems ls ++ [n])%list
  end.

(** Kernel hyperparameter [h] of model [m] currently has the value [v]. *)
Definition hyper (s : store) (m : eq_model) (h : string) (v : num) : Prop :=
  exists n, In n (kernel_declares (e_kernel m)) /\ nm_name n = h /\ p_val (st_cell s (nm_loc n)) = v.

(** Models as the public constructors build them. *)
Definition built_eq (m : eq_model) : Prop :=
  built_ls (k_ls (e_kernel m)) /\
  match e_kernel m with KMatern _ n _ => nm_name n = "smoothness" | _ => True end.

(** Same value, and a number: what a user means by "equal". *)
Definition agree (v w : num) : Prop := v = w /\ v <> NaN.

(** The noise is one number (homoscedastic, shear, null, or a tensor with one entry): [v]. *)
Definition one_noise (s : store) (m : eq_model) (v : num) : Prop :=
  match e_noise m with
  | EHomo n => p_val (st_cell s (nm_loc n)) = v
  | EHetero t => (exists k, shape t = repeat 1 k /\ at_ t (repeat 0 k) = v)
  | ENull => v = Fin 0
  end.

(** Both kernels declare the same hyperparameter names. *)
Definition same_names (a b : eq_model) : Prop :=
  forall h, In h (map nm_name (kernel_declares (e_kernel a))) <->
            In h (map nm_name (kernel_declares (e_kernel b))).
