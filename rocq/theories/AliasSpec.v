(** Specification vocabulary for sharing between kernels and models. *)
From Verif Require Import Base HyperModel NamedModel AliasModel.
Local Open Scope list_scope.

(** Everything the behaviour of a kernel depends on: the hyperparameters it reports (name, value, bounds), the
    hyperparameters its bound function reads, and the chosen formula. *)
Definition kernel_obs (o : objs) (i : nat) : option (list (string * param) * list param * option matern_fn) :=
  match nth_error (o_kernels o) i with
  | None => None
  | Some k =>
      Some (map (fun n => (nm_name n, st_cell (o_params o) (nm_loc n)))
              (nth (k_def k) (o_defs o) [] ++ match k_smooth k with Some n => [n] | None => [] end),
            map (st_cell (o_params o)) (k_bound k), k_fn k)
  end.

(** The value of a noise object. *)
Definition noise_obs (o : objs) (i : nat) : option (option param * option (list num)) :=
  match nth_error (o_noises o) i with
  | None => None
  | Some (ZHomo l) => Some (Some (st_cell (o_params o) l), None)
  | Some (ZHetero a) => Some (None, nth_error (o_arrays o) a)
  | Some ZNull => Some (None, None)
  end.

(** Everything the behaviour of a model depends on: its kernel, the noise it reports and the noise its bound
    functions use, its scale object, and the scale its variance uses. *)
Definition model_obs (o : objs) (i : nat) :=
  match nth_error (o_models o) i with
  | None => None
  | Some m => Some (kernel_obs o (mo_kernel m), noise_obs o (mo_noise m), noise_obs o (mo_bnoise m),
                    nth_error (o_scales o) (mo_scale m), mo_bscale m)
  end.

(** A model uses: a kernel object, the deformation in it, a noise object, a scale object. *)
Definition uses_kernel (o : objs) (m k : nat) : Prop :=
  exists mm, nth_error (o_models o) m = Some mm /\ mo_kernel mm = k.
Definition uses_deformation (o : objs) (m d : nat) : Prop :=
  exists mm kk, nth_error (o_models o) m = Some mm /\ nth_error (o_kernels o) (mo_kernel mm) = Some kk /\ k_def kk = d.
Definition uses_noise (o : objs) (m z : nat) : Prop :=
  exists mm, nth_error (o_models o) m = Some mm /\ mo_noise mm = z.
Definition uses_scale (o : objs) (m s : nat) : Prop :=
  exists mm, nth_error (o_models o) m = Some mm /\ mo_scale mm = s.

(** The operation is addressed to an object that model [m] was built from: [set_params] on its kernel or on
    another kernel with the same deformation object, [optimize_scale] on a model with the same scale or kernel object,
    building another model on the same kernel object, the caller writing into the array given as its noise. *)
Definition addresses (o : objs) (op : aop) (m : nat) : Prop :=
  match op with
  | USetParams k _ => uses_kernel o m k \/
      exists kk, nth_error (o_kernels o) k = Some kk /\ uses_deformation o m (k_def kk)
  | UOptScale m' _ => (exists k, uses_kernel o m k /\ uses_kernel o m' k) \/ (exists s, uses_scale o m s /\ uses_scale o m' s)
  | NModel k _ _ => uses_kernel o m k
  | UArray a _ => exists z, uses_noise o m z /\ nth_error (o_noises o) z = Some (ZHetero a)
  | _ => False
  end.

(** Updates through model [m1]: its kernel's [set_params], its [optimize_scale]. *)
Definition update_of (o : objs) (op : aop) (m : nat) : Prop :=
  match op with
  | USetParams k _ => uses_kernel o m k
  | UOptScale m' _ => m' = m
  | _ => False
  end.

(** Two models built from different objects. *)
Definition separately_built (o : objs) (m1 m2 : nat) : Prop :=
  (forall k, uses_kernel o m1 k -> ~ uses_kernel o m2 k) /\
  (forall d, uses_deformation o m1 d -> ~ uses_deformation o m2 d) /\
  (forall s, uses_scale o m1 s -> ~ uses_scale o m2 s).

(** Objects reachable by some history of the program. *)
Definition reachable (o : objs) : Prop := exists ops, o = arun ops import_objs.
