(** Model of named and vector hyperparameters
    (/repo/src/MuyGPyS/gp/hyperparameter/scalar.py:298-348, vector.py), of the kernel and model
    objects that hold them (gp/kernels/kernel_fn.py, matern.py, rbf.py, gp/muygps.py:95-167) and
    of the noise constructors (gp/noise/*.py). *)
From Coq Require Import DecimalString.
From Verif Require Import Base HyperModel.
Local Open Scope string_scope.

(** Python [str(i)] for a nonnegative int (vector.py:79). *)
Definition str_nat (i : nat) : string := NilEmpty.string_of_uint (Nat.to_uint i).

(** A [NamedParameter] object: its name and the heap location of its state. *)
Record named := mkNamed { nm_name : string; nm_loc : nat }.

(** ** Keyword handling.  [cur] gives the value each parameter object holds at call time, so a
    bound function is a function of [cur]: closures read [self()] when called. *)
Section Keywords.
Context {V B : Type}.

(** [NamedParameter.apply_fn] (scalar.py:314-319). *)
Definition named_apply_fn (n : named) (fn : dict V -> result B)
  (cur : nat -> V) (kw : dict V) : result B :=
  fn (setdefault kw (nm_name n) (cur (nm_loc n))).

(** [NamedParameter.filter_kwargs] (scalar.py:321-325). *)
Definition named_filter (n : named) (cur : nat -> V) (kw : dict V) : dict V * dict V :=
  (setdefault (filter (fun kv => String.eqb (fst kv) (nm_name n)) kw)
              (nm_name n) (cur (nm_loc n)),
   filter (fun kv => negb (String.eqb (fst kv) (nm_name n))) kw).

(** [NamedParameter.apply_embedding_fn] (scalar.py:327-334). *)
Definition named_embed {D D'} (n : named) (fn : D' -> dict V -> result B)
  (deform : D -> dict V -> result D') (cur : nat -> V) (dists : D) (kw : dict V) : result B :=
  let (params, rest) := named_filter n cur kw in
  let! d := deform dists params in fn d rest.

(** A [NamedVectorParameter] object (vector.py:76-84). *)
Record nvec := mkVec { v_name : string; v_elems : list named }.

(** [NamedVectorParameter.set_defaults] (vector.py:87-90). *)
Definition vec_defaults (v : nvec) (cur : nat -> V) (params : dict V) : dict V :=
  fold_left (fun d n => setdefault d (nm_name n) (cur (nm_loc n))) (v_elems v) params.

(** [NamedVectorParameter.filter_kwargs] (vector.py:92-100). *)
Definition vec_filter (v : nvec) (cur : nat -> V) (kw : dict V) : dict V * dict V :=
  (vec_defaults v cur (filter (fun kv => String.prefix (v_name v) (fst kv)) kw),
   filter (fun kv => negb (String.prefix (v_name v) (fst kv))) kw).

(** [NamedVectorParameter.__call__] (vector.py:102-110): the array of values, in the order of
    the keyword dictionary. *)
Definition vec_call (v : nvec) (cur : nat -> V) (kw : dict V) : list V :=
  map snd (fst (vec_filter v cur kw)).

(** [NamedVectorParameter.apply_fn] (vector.py:112-117): [fn( **params, **kwargs)]. *)
Definition vec_apply_fn (v : nvec) (fn : dict V -> result B) (cur : nat -> V) (kw : dict V)
  : result B :=
  let (params, rest) := vec_filter v cur kw in fn (params ++ rest)%list.

(** [NamedVectorParameter.apply_embedding_fn] (vector.py:119-127). *)
Definition vec_embed {D D'} (v : nvec) (fn : D' -> dict V -> result B)
  (deform : D -> dict V -> result D') (cur : nat -> V) (dists : D) (kw : dict V) : result B :=
  let (params, rest) := vec_filter v cur kw in
  let! d := deform dists params in fn d rest.
End Keywords.

(** ** Construction of named parameters (each is a fresh copy of its source object) *)

(** [NamedParameter.__init__] (scalar.py:304-309). *)
Definition named_init (s : store) (name : string) (src : nat) : store * named :=
  (st_new s (param_set (mkParam (Fin 0) (Fin 0, Fin 0) true) (st_cell s src)),
   mkNamed name (st_next s)).

(** The enumerate loop of [NamedVectorParameter.__init__] (vector.py:77-82). *)
Fixpoint vec_init_from (s : store) (name : string) (i : nat) (srcs : list nat)
  : store * list named :=
  match srcs with
  | [] => (s, [])
  | src :: srcs' =>
      let (s1, n) := named_init s (name ++ str_nat i) src in
      let (s2, l) := vec_init_from s1 name (S i) srcs' in
      (s2, n :: l)
  end.

Definition vec_init (s : store) (name : string) (srcs : list nat) : store * nvec :=
  let (s', l) := vec_init_from s name 0 srcs in (s', mkVec name l).

(** Names of [NamedHierarchicalVectorParameter] knots
    (gp/hyperparameter/experimental/hierarchical.py:176-182 over 95-103): dimension [i], knot [j]. *)
Definition hier_vec_name (name : string) (i j : nat) : string :=
  (name ++ str_nat i) ++ str_nat j.

(** ** Kernels and models *)

(** The length scale held by a deformation: [Isotropy] with a scalar (isotropy.py:46-56),
    [Anisotropy] with a vector (anisotropy.py:36-41), or [Isotropy] with a hierarchical parameter
    whose knots form a vector (hierarchical.py:95-103). *)
Inductive length_scale :=
| LSScalar (n : named)
| LSVector (v : nvec)
| LSHier (v : nvec).

Definition ls_elems (ls : length_scale) : list named :=
  match ls with LSScalar n => [n] | LSVector v | LSHier v => v_elems v end.

(** Which backend function a Matern kernel is bound to (matern.py:61-81). *)
Inductive matern_fn := M05 | M15 | M25 | MInf | MGen.

(** Kernel objects.  The Matern kernel also stores the backend chosen by the last [_make]
    (matern.py:139-146). *)
Inductive kernel :=
| KRbf (ls : length_scale)
| KMatern (ls : length_scale) (smooth : named) (chosen : matern_fn).

Definition k_ls (k : kernel) : length_scale :=
  match k with KRbf ls => ls | KMatern ls _ _ => ls end.

(** [_set_matern_fn] (matern.py:61-81). *)
Definition set_matern_fn (p : param) : matern_fn :=
  if p_fixed p then
    if num_eqb (p_val p) (Fin (1/2)) then M05
    else if num_eqb (p_val p) (Fin (3/2)) then M15
    else if num_eqb (p_val p) (Fin (5/2)) then M25
    else if num_eqb (p_val p) PInf then MInf
    else MGen
  else MGen.

(** [_make] of RBF (rbf.py:86-90) and Matern (matern.py:139-146). *)
Definition kernel_make (s : store) (k : kernel) : kernel :=
  match k with
  | KRbf ls => KRbf ls
  | KMatern ls n _ => KMatern ls n (set_matern_fn (st_cell s (nm_loc n)))
  end.

(** [Matern.__init__] (matern.py:120-137) and [RBF.__init__] (rbf.py:72-87), given the
    deformation's length scale. *)
Definition matern_init (s : store) (smooth : nat) (ls : length_scale) : store * kernel :=
  let (s', n) := named_init s "smoothness" smooth in
  (s', kernel_make s' (KMatern ls n MGen)).

Definition rbf_init (s : store) (ls : length_scale) : store * kernel := (s, KRbf ls).

(** The parameters in the order in which [_make] populates [_hyperparameters]
    (kernel_fn.py:73-74, matern.py:140-141). *)
Definition kernel_params (k : kernel) : list named :=
  match k with
  | KRbf ls => ls_elems ls
  | KMatern ls n _ => (ls_elems ls ++ [n])%list
  end.

(** [self._hyperparameters] (kernel_fn.py:69-74; [populate] is scalar.py:347-348). *)
Definition kernel_dict (k : kernel) : dict named :=
  fold_left (fun d n => dset d (nm_name n) n) (kernel_params k) [].

(** [KernelFn.set_params] (kernel_fn.py:77-86): [_set] on each named object; no [_make]. *)
Fixpoint set_params (s : store) (k : kernel) (kw : dict param) : result store :=
  match kw with
  | [] => Ok s
  | (name, rhs) :: kw' =>
      match dget (kernel_dict k) name with
      | None => Err KeyError
      | Some n => set_params (st_put s (nm_loc n) (param_set (st_cell s (nm_loc n)) rhs)) k kw'
      end
  end.

(** The lists filled by [append_lists]. *)
Definition opt_lists := (list string * list num * list (num * num))%type.

(** [NamedParameter.append_lists] (scalar.py:336-345). *)
Definition named_append (s : store) (acc : opt_lists) (n : named) : opt_lists :=
  let '(names, params, bounds) := acc in
  let p := st_cell s (nm_loc n) in
  if p_fixed p then acc
  else (names ++ [nm_name n], params ++ [p_val p], bounds ++ [p_bounds p])%list.

(** [append_lists] of a length scale (scalar.py:337-345, vector.py:131-141,
    hierarchical.py:163-169). *)
Definition ls_append (s : store) (acc : opt_lists) (ls : length_scale) : opt_lists :=
  fold_left (named_append s) (ls_elems ls) acc.

(** [get_opt_params] of kernels (kernel_fn.py:102-121, matern.py:171-188). *)
Definition kernel_opt_params (s : store) (k : kernel) : opt_lists :=
  match k with
  | KRbf ls => ls_append s ([], [], []) ls
  | KMatern ls n _ => named_append s (ls_append s ([], [], []) ls) n
  end.

(** Noise objects: homoscedastic / shear (gp/noise/homoscedastic.py:42-58, shear.py), heteroscedastic
    (heteroscedastic.py:36-44), null (null.py:19-28). *)
Inductive noise_obj := NHomo (n : named) | NHetero | NNull.

Record model := mkModel { m_kernel : kernel; m_noise : noise_obj }.

(** [MuyGPS.__init__] calls [_make], which calls the kernel's [_make] (muygps.py:95-126). *)
Definition model_make (s : store) (m : model) : model :=
  mkModel (kernel_make s (m_kernel m)) (m_noise m).

(** [noise.append_lists] (scalar.py:337-345; tensor.py: pass; noise_fn.py: NotImplementedError,
    which NullNoise inherits). *)
Definition noise_append (s : store) (acc : opt_lists) (z : noise_obj) : result opt_lists :=
  match z with
  | NHomo n => Ok (named_append s acc n)
  | NHetero => Ok acc
  | NNull => Err NotImplementedError
  end.

(** [MuyGPS.get_opt_params] (muygps.py:145-162). *)
Definition get_opt_params (s : store) (m : model) : result opt_lists :=
  noise_append s (kernel_opt_params s (m_kernel m)) (m_noise m).

(** [noise.fixed()]: NullNoise never sets [_fixed] (null.py:22-25), so [Parameter.fixed]
    (scalar.py:287-295) raises AttributeError. *)
Definition noise_fixed (s : store) (z : noise_obj) : result bool :=
  match z with
  | NHomo n => Ok (p_fixed (st_cell s (nm_loc n)))
  | NHetero => Ok true
  | NNull => Err AttributeError
  end.

(** [MuyGPS.fixed] (muygps.py:128-143). *)
Definition model_fixed (s : store) (m : model) : result bool :=
  if forallb (fun kv => p_fixed (st_cell s (nm_loc (snd kv)))) (kernel_dict (m_kernel m))
  then noise_fixed s (m_noise m)
  else Ok false.

(** [VectorParameter.fixed] (vector.py:65-73): numpy's [all] applied to a generator object is the
    truth value of the generator object, i.e. always true. *)
Definition vec_fixed (s : store) (v : nvec) : bool := true.

(** ** Noise constructors *)

(** [HomoscedasticNoise.__init__] (homoscedastic.py:42-58). *)
Definition homoscedastic_init (e : env) (val bounds : pyval) : result param :=
  let! p := param_init e val bounds in
  if negb (p_fixed p) &&
     (num_ltb (fst (p_bounds p)) (Fin 0) || num_ltb (snd (p_bounds p)) (Fin 0))
  then Err ValueError else Ok p.

(** [HeteroscedasticNoise.__init__] (heteroscedastic.py:38-46) over [TensorParam._set_val]
    (tensor.py:64-97): arrays only, no entry below zero. *)
Inductive tensor_arg := TArr (entries : list num) | TStr | TOther.

Definition heteroscedastic_init (v : tensor_arg) : result (list num) :=
  match v with
  | TArr l => if existsb (fun x => num_ltb x (Fin 0)) l then Err ValueError else Ok l
  | _ => Err ValueError
  end.
