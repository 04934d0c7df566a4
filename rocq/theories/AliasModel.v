(** Model of which objects the kernels and models of MuyGPyS share: constructors with their default arguments,
    updates, and the deep copy made by optimization.  Files under /repo/src/MuyGPyS: gp/kernels/rbf.py,
    matern.py, kernel_fn.py, gp/deformation/isotropy.py, anisotropy.py, gp/muygps.py, gp/noise/*.py,
    gp/hyperparameter/scale.py, _src/optimize/chassis/numpy.py. *)
From Verif Require Import Base HyperModel NamedModel.
Local Open Scope string_scope.
Local Open Scope list_scope.

(** A kernel object: the deformation it holds, its smoothness (Matern), the parameter objects its bound
    function [_fn] reads, and the branch chosen by the last [_make] (matern.py:139-146, rbf.py:86-90). *)
Record kobj := mkK { k_def : nat; k_smooth : option named; k_bound : list nat; k_fn : option matern_fn }.
(** A noise object: a scalar parameter (homoscedastic.py, shear.py: the object is itself the parameter), a
    reference to the caller's array (heteroscedastic.py over tensor.py:97, no copy), or null. *)
Inductive nobj := ZHomo (loc : nat) | ZHetero (arr : nat) | ZNull.
(** A scale object (scale.py:37-39): value, [_trained], and whether it is a FixedScale. *)
Record sobj := mkS { sc_val : num; sc_trained : bool; sc_fixed : bool }.
(** A MuyGPS object (muygps.py:95-126): kernel, noise, scale, the noise object its bound mean and variance functions
    perturb with, and the scale value bound at [_make]. *)
Record mobj := mkM { mo_kernel : nat; mo_noise : nat; mo_scale : nat; mo_bnoise : nat; mo_bscale : num }.

(** All objects alive; each kind is numbered in order of creation. *)
Record objs := mkO {
  o_params : store;
  o_arrays : list (list num);
  o_defs : list (list named);
  o_kernels : list kobj;
  o_noises : list nobj;
  o_scales : list sobj;
  o_models : list mobj
}.

Definition set_nth {A} (l : list A) (i : nat) (x : A) : list A :=
  map (fun jy => if Nat.eqb (fst jy) i then x else snd jy) (combine (seq 0 (List.length l)) l).

(** The default arguments, evaluated once at import: [Matern]'s smoothness [ScalarParam(0.5)] (matern.py:120) and
    deformation [Isotropy(l2, ScalarParam(1.0))] (matern.py:121-123); [RBF]'s deformation
    [Isotropy(F2, ScalarParam(1.0))] (rbf.py:72-74); MuyGPS's noise [HomoscedasticNoise(0.0, "fixed")] and scale
    [FixedScale()] (muygps.py:98-99).  Deformation 0 is Matern's, 1 is RBF's; noise 0 and scale 0 are MuyGPS's. *)
Definition fixed_param (v : num) : param := mkParam v (Fin 0, Fin 0) true.
Definition import_objs : objs :=
  let s0 := st_new empty_store (fixed_param (Fin (1/2))) in   (* 0: ScalarParam(0.5) *)
  let s1 := st_new s0 (fixed_param (Fin 1)) in                (* 1: ScalarParam(1.0) *)
  let (s2, n1) := named_init s1 "length_scale" 1 in           (* 2 *)
  let s3 := st_new s2 (fixed_param (Fin 1)) in                (* 3: ScalarParam(1.0) *)
  let (s4, n2) := named_init s3 "length_scale" 3 in           (* 4 *)
  let s5 := st_new s4 (fixed_param (Fin 0)) in                (* 5: HomoscedasticNoise(0.0, "fixed") *)
  mkO s5 [] [[n1]; [n2]] [] [ZHomo 5] [mkS (Fin 1) false true] [].
Definition default_smoothness := 0.
Definition default_matern_def := 0.
Definition default_rbf_def := 1.
Definition default_noise := 0.
Definition default_scale := 0.

(** [KernelFn._make] of RBF and Matern: bind the function to the kernel's own parameter objects. *)
Definition make_kernel (o : objs) (k : kobj) : kobj :=
  let ls := nth (k_def k) (o_defs o) [] in
  match k_smooth k with
  | None => mkK (k_def k) None (map nm_loc ls) None
  | Some n => mkK (k_def k) (Some n) (map nm_loc ls ++ [nm_loc n]) (Some (set_matern_fn (st_cell (o_params o) (nm_loc n))))
  end.
Definition with_kernels (o : objs) ks := mkO (o_params o) (o_arrays o) (o_defs o) ks (o_noises o) (o_scales o) (o_models o).
Definition with_params (o : objs) s := mkO s (o_arrays o) (o_defs o) (o_kernels o) (o_noises o) (o_scales o) (o_models o).

(** [MuyGPS._make] (muygps.py:112-126): the kernel's [_make], then the bound functions. *)
Definition make_model (o : objs) (i : nat) : objs :=
  match nth_error (o_models o) i with
  | None => o
  | Some m =>
      match nth_error (o_kernels o) (mo_kernel m), nth_error (o_scales o) (mo_scale m) with
      | Some k, Some s =>
          mkO (o_params o) (o_arrays o) (o_defs o) (set_nth (o_kernels o) (mo_kernel m) (make_kernel o k))
              (o_noises o) (o_scales o)
              (set_nth (o_models o) i (mkM (mo_kernel m) (mo_noise m) (mo_scale m) (mo_noise m) (sc_val s)))
      | _, _ => o
      end
  end.

(** The hyperparameter dictionary of a kernel (kernel_fn.py:69-74). *)
Definition kobj_params (o : objs) (k : kobj) : list named :=
  nth (k_def k) (o_defs o) [] ++ match k_smooth k with Some n => [n] | None => [] end.
Definition kobj_dict (o : objs) (k : kobj) : dict named :=
  fold_left (fun d n => dset d (nm_name n) n) (kobj_params o k) [].

(** [KernelFn.set_params] (kernel_fn.py:77-86). *)
Fixpoint put_params (s : store) (d : dict named) (kw : dict param) : store :=
  match kw with
  | [] => s
  | (name, rhs) :: kw' =>
      match dget d name with
      | None => s
      | Some n => put_params (st_put s (nm_loc n) (param_set (st_cell s (nm_loc n)) rhs)) d kw'
      end
  end.

(** Copies of a list of named parameters made by [deepcopy]: fresh objects with the same state. *)
Fixpoint copy_named (s : store) (l : list named) : store * list named :=
  match l with
  | [] => (s, [])
  | n :: l' =>
      let s1 := st_new s (st_cell s (nm_loc n)) in
      let (s2, r) := copy_named s1 l' in
      (s2, mkNamed (nm_name n) (st_next s) :: r)
  end.

(** [deepcopy(muygps)] (chassis/numpy.py:17).  Every object reachable from the model is copied, except functions,
    which Python's deepcopy returns as they are: the copied kernel's [_fn] and the copied model's bound functions
    still refer to the original's parameter and noise objects. *)
Definition deepcopy_model (o : objs) (m : mobj) : option objs :=
  match nth_error (o_kernels o) (mo_kernel m), nth_error (o_noises o) (mo_noise m), nth_error (o_scales o) (mo_scale m) with
  | Some k, Some z, Some sc =>
      let (s1, ls) := copy_named (o_params o) (nth (k_def k) (o_defs o) []) in
      let '(s2, sm) := match k_smooth k with
                       | None => (s1, None)
                       | Some n => (st_new s1 (st_cell s1 (nm_loc n)), Some (mkNamed (nm_name n) (st_next s1)))
                       end in
      let '(s3, arrays, z') := match z with
                       | ZHomo l => (st_new s2 (st_cell s2 l), o_arrays o, ZHomo (st_next s2))
                       | ZHetero a => (s2, o_arrays o ++ [nth a (o_arrays o) []], ZHetero (List.length (o_arrays o)))
                       | ZNull => (s2, o_arrays o, ZNull)
                       end in
      let k' := mkK (List.length (o_defs o)) sm (k_bound k) (k_fn k) in
      let m' := mkM (List.length (o_kernels o)) (List.length (o_noises o)) (List.length (o_scales o))
                    (mo_bnoise m) (mo_bscale m) in
      Some (mkO s3 arrays (o_defs o ++ [ls]) (o_kernels o ++ [k']) (o_noises o ++ [z'])
                (o_scales o ++ [sc]) (o_models o ++ [m']))
  | _, _, _ => None
  end.

(** The loop of [_new_muygps] (chassis/numpy.py:15-34) on the copy [k], [z]; an exception abandons the copy.
    Values are already clamped to the bounds here (C35 models the clamping). *)
Fixpoint put_optimized (e : env) (s : store) (d : dict named) (z : nobj) (vals : dict num) : option store :=
  match vals with
  | [] => Some s
  | (key, v) :: vals' =>
      let target := if String.eqb key "noise" then match z with ZHomo l => Some l | _ => None end
                    else option_map nm_loc (dget d key) in
      match target with
      | None => None
      | Some l => match param_set_val e (st_cell s l) (PNum v) with
                  | Ok p => put_optimized e (st_put s l p) d z vals'
                  | Err _ => None
                  end
      end
  end.

(** What a user can do. *)
Inductive aop :=
| NParam (e : env) (v b : pyval)                 (* ScalarParam(v, b) *)
| NArray (l : list num)                          (* the caller creates an array *)
| NIso (src : nat)                               (* Isotropy(metric, param) *)
| NAniso (srcs : list nat)                       (* Anisotropy(metric, VectorParam(params)) *)
| NRbf (d : option nat)                          (* RBF() or RBF(deformation=d) *)
| NMatern (sm d : option nat)                    (* Matern(smoothness=sm, deformation=d) *)
| NHomo_ (e : env) (v b : pyval)                 (* HomoscedasticNoise(v, b) *)
| NHetero_ (a : nat)                             (* HeteroscedasticNoise(array) *)
| NNull_                                         (* NullNoise() *)
| NScale (fixed : bool) (v : num)                (* FixedScale / AnalyticScale / DownSampleScale *)
| NModel (k : nat) (z s : option nat)            (* MuyGPS(kernel, noise, scale) *)
| USetParams (k : nat) (kw : dict param)         (* kernel.set_params *)
| UOptScale (m : nat) (v : num)                  (* model.optimize_scale; v is the optimized value *)
| UArray (a : nat) (l : list num)                (* the caller writes into its own array *)
| NOptimized (m : nat) (e : env) (vals : dict num). (* an optimizer returns a new model *)

Definition astep (o : objs) (op : aop) : objs :=
  match op with
  | NParam e v b => match param_init e v b with Ok p => with_params o (st_new (o_params o) p) | Err _ => o end
  | NArray l => mkO (o_params o) (o_arrays o ++ [l]) (o_defs o) (o_kernels o) (o_noises o) (o_scales o) (o_models o)
  | NIso src =>
      (* isotropy.py:46-56: NamedParam("length_scale", length_scale) is a fresh object *)
      if Nat.ltb src (st_next (o_params o)) then
        let (s, n) := named_init (o_params o) "length_scale" src in
        mkO s (o_arrays o) (o_defs o ++ [[n]]) (o_kernels o) (o_noises o) (o_scales o) (o_models o)
      else o
  | NAniso srcs =>
      (* anisotropy.py:36-41: NamedVectorParam makes one fresh object per element *)
      if forallb (fun src => Nat.ltb src (st_next (o_params o))) srcs then
        let (s, v) := vec_init (o_params o) "length_scale" srcs in
        mkO s (o_arrays o) (o_defs o ++ [v_elems v]) (o_kernels o) (o_noises o) (o_scales o) (o_models o)
      else o
  | NRbf d =>
      (* rbf.py:70-84: the deformation object itself is stored *)
      let d' := match d with Some d => d | None => default_rbf_def end in
      if Nat.ltb d' (List.length (o_defs o)) then
        with_kernels o (o_kernels o ++ [make_kernel o (mkK d' None [] None)])
      else o
  | NMatern sm d =>
      (* matern.py:118-137: the smoothness is copied into a NamedParam, the deformation object is stored *)
      let d' := match d with Some d => d | None => default_matern_def end in
      let sm' := match sm with Some l => l | None => default_smoothness end in
      if Nat.ltb d' (List.length (o_defs o)) && Nat.ltb sm' (st_next (o_params o)) then
        let (s, n) := named_init (o_params o) "smoothness" sm' in
        let o1 := with_params o s in
        with_kernels o1 (o_kernels o1 ++ [make_kernel o1 (mkK d' (Some n) [] None)])
      else o
  | NHomo_ e v b =>
      match homoscedastic_init e v b with
      | Ok p => mkO (st_new (o_params o) p) (o_arrays o) (o_defs o) (o_kernels o)
                    (o_noises o ++ [ZHomo (st_next (o_params o))]) (o_scales o) (o_models o)
      | Err _ => o
      end
  | NHetero_ a =>
      if Nat.ltb a (List.length (o_arrays o)) then
        mkO (o_params o) (o_arrays o) (o_defs o) (o_kernels o) (o_noises o ++ [ZHetero a]) (o_scales o) (o_models o)
      else o
  | NNull_ => mkO (o_params o) (o_arrays o) (o_defs o) (o_kernels o) (o_noises o ++ [ZNull]) (o_scales o) (o_models o)
  | NScale f v => mkO (o_params o) (o_arrays o) (o_defs o) (o_kernels o) (o_noises o) (o_scales o ++ [mkS v false f]) (o_models o)
  | NModel k z s =>
      (* muygps.py:95-110 *)
      let z' := match z with Some z => z | None => default_noise end in
      let s' := match s with Some s => s | None => default_scale end in
      if Nat.ltb k (List.length (o_kernels o)) && Nat.ltb z' (List.length (o_noises o)) && Nat.ltb s' (List.length (o_scales o)) then
        make_model (mkO (o_params o) (o_arrays o) (o_defs o) (o_kernels o) (o_noises o) (o_scales o)
                        (o_models o ++ [mkM k z' s' z' (Fin 0)]))
                   (List.length (o_models o))
      else o
  | USetParams k kw =>
      match nth_error (o_kernels o) k with
      | Some kk => with_params o (put_params (o_params o) (kobj_dict o kk) kw)
      | None => o
      end
  | UOptScale m v =>
      (* muygps.py:373-403: scale._set(opt_fn(...)) then _make; FixedScale's opt_fn returns the current value *)
      match nth_error (o_models o) m with
      | Some mm =>
          match nth_error (o_scales o) (mo_scale mm) with
          | Some sc =>
              make_model (mkO (o_params o) (o_arrays o) (o_defs o) (o_kernels o) (o_noises o)
                (set_nth (o_scales o) (mo_scale mm) (mkS (if sc_fixed sc then sc_val sc else v) true (sc_fixed sc)))
                (o_models o)) m
          | None => o
          end
      | None => o
      end
  | UArray a l =>
      if Nat.ltb a (List.length (o_arrays o)) then
        mkO (o_params o) (set_nth (o_arrays o) a l) (o_defs o) (o_kernels o) (o_noises o) (o_scales o) (o_models o)
      else o
  | NOptimized m e vals =>
      (* chassis/numpy.py:15-36 *)
      match nth_error (o_models o) m with
      | None => o
      | Some mm =>
          match deepcopy_model o mm with
          | None => o
          | Some o1 =>
              match nth_error (o_kernels o1) (List.length (o_kernels o)), nth_error (o_noises o1) (List.length (o_noises o)) with
              | Some k', Some z' =>
                  match put_optimized e (o_params o1) (kobj_dict o1 k') z' vals with
                  | Some s => make_model (with_params o1 s) (List.length (o_models o))
                  | None => o
                  end
              | _, _ => o
              end
          end
      end
  end.

Definition arun (ops : list aop) (o : objs) : objs := fold_left astep ops o.
