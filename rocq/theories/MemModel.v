(** A memory model of the numpy arrays: buffers, views, in-place statements.  It re-models, statement by
    statement, the functions of /repo/src/MuyGPyS/_src/gp/kernels/numpy.py, _src/gp/noise/numpy.py,
    gp/deformation/isotropy.py, anisotropy.py and optimize/objective.py, so that writes to memory the caller
    can see are visible.  (The models of KernelModel.v and NoiseModel.v are pure.) *)
From Verif Require Import Base NdModel RSum HyperModel NamedModel TensorModel KernelModel NoiseModel.
Local Open Scope R_scope.
Local Open Scope string_scope.

(** Memory: numbered buffers of numbers; [h_next] is the next unused number. *)
Record heap := mkHeap { h_next : nat; h_buf : nat -> nat -> R }.

(** An ndarray object: the buffer it lives in, its shape, and where each entry is stored (numpy's offset
    and strides, as an arbitrary map). *)
Record tref := mkRef { t_addr : nat; t_shape : list nat; t_pos : list nat -> nat }.

(** The contents of an array. *)
Definition read (h : heap) (t : tref) : nd R :=
  mkNd (t_shape t) (fun idx => h_buf h (t_addr t) (t_pos t idx)).

(** A Python statement sequence over the memory: the memory is changed even when an exception is raised. *)
Definition M (A : Type) := heap -> heap * result A.
Definition mret {A} (a : A) : M A := fun h => (h, Ok a).
Definition mfail {A} (e : err) : M A := fun h => (h, Err e).
Definition mbind {A B} (m : M A) (k : A -> M B) : M B := fun h =>
  match m h with
  | (h', Ok a) => k a h'
  | (h', Err e) => (h', Err e)
  end.
Notation "'do!' x ':=' m 'in' k" := (mbind m (fun x => k))
  (at level 200, x pattern, m at level 100, k at level 200).

(** Any numpy expression whose result is a new array: a fresh buffer, row-major. *)
Definition alloc (x : nd R) : M tref := fun h =>
  (mkHeap (S (h_next h))
          (fun a => if Nat.eqb a (h_next h) then fun p => at_ x (unravel (shape x) p) else h_buf h a),
   Ok (mkRef (h_next h) (shape x) (ravel (shape x)))).

(** A new array computed from the contents of others, or an exception. *)
Definition new (f : heap -> result (nd R)) : M tref := fun h =>
  match f h with Ok x => alloc x h | Err e => (h, Err e) end.

(** [t.reshape(sh)]: a view of the same buffer when the strides allow it ([view] = true), else a copy. *)
Definition mem_reshape (view : bool) (t : tref) (sh : list nat) : M tref :=
  if negb (Nat.eqb (nprod sh) (nprod (t_shape t))) then mfail ValueError
  else if view then mret (mkRef (t_addr t) sh (fun idx => t_pos t (unravel (t_shape t) (ravel sh idx))))
  else new (fun h => reshape (read h t) sh).

(** One store. *)
Definition poke (h : heap) (a p : nat) (v : R) : heap :=
  mkHeap (h_next h) (fun a' => if Nat.eqb a' a then fun p' => if Nat.eqb p' p then v else h_buf h a p'
                               else h_buf h a').

(** [t[mask] = x] for a mask given per entry, entries in row-major order.  Also [t[...] op= y] and
    [t.fill(c)]. *)
Definition store_where (t : tref) (mask : list nat -> bool) (x : list nat -> R) : M unit := fun h =>
  (fold_left (fun h' k => let idx := unravel (t_shape t) k in
                          if mask idx then poke h' (t_addr t) (t_pos t idx) (x idx) else h')
             (seq 0 (nprod (t_shape t))) h,
   Ok tt).

(** ** Kernels *)
Section Bessel.
Variable gamma : R -> R.
Variable kv : R -> R -> R.

(** numpy.py:34-43 [_matern_gen_fn]: [K] is the argument itself, not a copy. *)
Definition mem_matern_gen (dists : tref) (smoothness : R) : M tref :=
  let K := dists in
  (* K[K == 0.0] += np.finfo(float).eps *)
  do! K0 := (fun h => (h, Ok (read h K))) in
  do! _ := store_where K (fun idx => Reqb (at_ K0 idx) 0) (fun idx => at_ K0 idx + eps64) in
  (* tmp = np.sqrt(2 * smoothness) * K *)
  do! tmp := new (fun h => Ok (ndmap (Rmult (sqrt (2 * smoothness))) (read h K))) in
  (* K.fill((2 ** (1.0 - smoothness)) / gamma(smoothness)) *)
  do! _ := store_where K (fun _ => true) (fun _ => Rpower 2 (1 - smoothness) / gamma smoothness) in
  (* K *= tmp**smoothness *)
  do! K1 := (fun h => (h, Ok (read h K))) in
  do! t1 := (fun h => (h, Ok (read h tmp))) in
  do! _ := store_where K (fun _ => true) (fun idx => at_ K1 idx * Rpower (at_ t1 idx) smoothness) in
  (* K *= kv(smoothness, tmp) *)
  do! K2 := (fun h => (h, Ok (read h K))) in
  do! t2 := (fun h => (h, Ok (read h tmp))) in
  do! _ := store_where K (fun _ => true) (fun idx => at_ K2 idx * kv smoothness (at_ t2 idx)) in
  mret K.

(** The other backend functions are single expressions (numpy.py:12-31). *)
Definition mem_matern_backend (c : matern_fn) (x : tref) (kw : dict R) : M tref :=
  match c with
  | M05 => new (fun h => Ok (ndmap m05_entry (read h x)))
  | M15 => new (fun h => Ok (ndmap m15_entry (read h x)))
  | M25 => new (fun h => Ok (ndmap m25_entry (read h x)))
  | MInf => new (fun h => Ok (ndmap minf_entry (read h x)))
  | MGen => match dget kw "smoothness" with
            | Some nu => mem_matern_gen x nu
            | None => mfail TypeError
            end
  end.
Definition mem_rbf_backend (x : tref) (kw : dict R) : M tref :=
  new (fun h => Ok (ndmap rbf_entry (read h x))).

(** Deformations: Isotropy divides by the length scale (isotropy.py:60-89, metric.py: a new array);
    DifferenceIsotropy and Anisotropy divide and apply the metric (isotropy.py:183-204,
    anisotropy.py:43-70), two new arrays of which the second is returned. *)
Definition mem_deform (d : deformation) (cur : nat -> R) (x : tref) (kw : dict R) : M tref :=
  match d with
  | Iso m n => new (fun h => isotropy_call m n cur (read h x) kw)
  | DiffIso m n =>
      let l := match dget kw "length_scale" with Some v => v | None => cur (nm_loc n) end in
      do! scaled := new (fun h => Ok (ndmap (fun y => y / l) (read h x))) in
      new (fun h => metric_call m (read h scaled))
  | Aniso m v =>
      match rev (t_shape x) with
      | [] => mfail IndexError
      | f :: _ =>
          if negb (Nat.eqb f (List.length (v_elems v))) then mfail ValueError
          else
            do! scaled := new (fun h => bop Rdiv (read h x) (vec 0 (vec_call v cur kw))) in
            new (fun h => metric_call m (read h scaled))
      end
  end.

(** [length_scale.apply_embedding_fn(fn, deformation)] (scalar.py:328-335, vector.py:121-129). *)
Definition mem_embed (d : deformation) (fn : tref -> dict R -> M tref)
  (cur : nat -> R) (x : tref) (kw : dict R) : M tref :=
  let (params, rest) :=
    match d with Iso _ n | DiffIso _ n => named_filter n cur kw | Aniso _ v => vec_filter v cur kw end in
  do! y := mem_deform d cur x params in fn y rest.

(** [RBF.__call__] (rbf.py:95-111) and [Matern.__call__] (matern.py:148-168). *)
Inductive mem_kernel := MKRbf (d : deformation) | MKMatern (d : deformation) (smooth : named) (c : matern_fn).
Definition mem_kernel_call (k : mem_kernel) (cur : nat -> R) (x : tref) (kw : dict R) : M tref :=
  match k with
  | MKRbf d => mem_embed d mem_rbf_backend cur x kw
  | MKMatern d sm c =>
      mem_embed d (fun y rest => mem_matern_backend c y (setdefault rest (nm_name sm) (cur (nm_loc sm)))) cur x kw
  end.
End Bessel.

(** ** Noise *)

(** numpy.py:9-27 [_homoscedastic_perturb]; [v1], [v2] say whether each reshape is a view. *)
Definition mem_homoscedastic (v1 v2 : bool) (Kin : tref) (noise : R) : M tref :=
  match t_shape Kin with
  | [_; nn_count; _] => new (fun h => bop Rplus (read h Kin) (ndmap (Rmult noise) (eye nn_count)))
  | [b; in_count; nn_count; in_count2; nn_count2] =>
    if negb (Nat.eqb nn_count nn_count2) then mfail AssertionError
    else if negb (Nat.eqb in_count in_count2) then mfail AssertionError
    else
      let all_count := (in_count * nn_count)%nat in
      do! flat := mem_reshape v1 Kin [b; all_count; all_count] in
      do! flat' := new (fun h => bop Rplus (read h flat) (ndmap (Rmult noise) (eye all_count))) in
      mem_reshape v2 flat' [b; in_count; nn_count; in_count; nn_count]
  | _ => mfail ValueError
  end.

(** numpy.py:30-53 [_shear_perturb33]. *)
Definition mem_shear33 (v1 v2 : bool) (Kin : tref) (noise : R) : M tref :=
  let convergence_variance := noise * 2 in
  match t_shape Kin with
  | [b; in_count; nn_count; in_count2; nn_count2] =>
    if negb (Nat.eqb nn_count nn_count2) then mfail AssertionError
    else if negb (Nat.eqb in_count in_count2) then mfail AssertionError
    else if negb (Nat.eqb in_count 3) then mfail AssertionError
    else
      let all_count := (in_count * nn_count)%nat in
      do! flat := mem_reshape v1 Kin [b; all_count; all_count] in
      let nugget := diag (nn_count + 2 * nn_count)
        (fun i => if Nat.ltb i nn_count then convergence_variance * 1 else noise * 1) in
      do! flat' := new (fun h => bop Rplus (read h flat) nugget) in
      mem_reshape v2 flat' [b; in_count; nn_count; in_count; nn_count]
  | _ => mfail ValueError
  end.

(** numpy.py:56-67 [_heteroscedastic_perturb]: [ret = Kin.copy()], then an in-place addition to [ret] on the
    diagonal of each matrix. *)
Definition mem_heteroscedastic (Kin noise : tref) : M tref :=
  do! ret := new (fun h => Ok (read h Kin)) in
  match t_shape Kin with
  | [batch_count; nn_count; nn2] =>
    let size := nprod (t_shape noise) in
    if Nat.eqb batch_count 0 then mfail IndexError
    else if Nat.eqb (batch_count * nn_count) 0 then
      (if Nat.eqb size 0 || Nat.eqb size 1 then mret ret else mfail ValueError)
    else if Nat.ltb nn2 nn_count then mfail IndexError
    else
      do! flat := (fun h => (h, Ok (fun q => at_ (read h noise) (unravel (t_shape noise) q)))) in
      do! old := (fun h => (h, Ok (read h ret))) in
      let on_diag idx := match idx with [_; i; j] => Nat.eqb i j && Nat.ltb i nn_count | _ => false end in
      let add (q : nat -> nat -> nat) :=
        do! _ := store_where ret on_diag
          (fun idx => match idx with [b; i; _] => at_ old idx + flat (q b i) | _ => at_ old idx end) in
        mret ret in
      if Nat.eqb size (batch_count * nn_count) then add (fun b i => b * nn_count + i)%nat
      else if Nat.eqb size 1 then add (fun _ _ => O)
      else mfail ValueError
  | _ => mfail ValueError
  end.

(** [perturb] of the noise models (homoscedastic.py:60-88, shear.py:19-27, heteroscedastic.py:48-67,
    null.py:32-47: the null model returns its argument). *)
Inductive mem_noise := MHomo (val : R) | MShear (val : R) | MHetero (val : tref) | MNull.
Definition mem_perturb (v1 v2 : bool) (z : mem_noise) (Kin : tref) (noise : option R) : M tref :=
  match z with
  | MHomo v => mem_homoscedastic v1 v2 Kin (match noise with None => v | Some x => x end)
  | MShear v => mem_shear33 v1 v2 Kin (match noise with None => v | Some x => x end)
  | MHetero t => mem_heteroscedastic Kin t
  | MNull => mret Kin
  end.

(** ** A leave-one-out objective (optimize/objective.py:92-119 over optimize/loss.py): both kernel tensors are
    made, then the mean, the variance and the scale each perturb [Kin] again.  The numerical routines themselves
    contain no in-place statement (_src/gp/muygps/numpy.py, _src/optimize/scale/numpy.py,
    _src/optimize/loss/numpy.py) and are given as functions of the array contents. *)
Section Objective.
Variables (gamma : R -> R) (kv : R -> R -> R).
Variable mean_f : nd R -> nd R -> nd R -> result (nd R).      (* Kin, Kcross, nn_targets *)
Variable var_f : nd R -> nd R -> result (nd R).               (* Kin, Kcross *)
Variable scale_f : nd R -> nd R -> result R.                  (* Kin, nn_targets *)
Variable loss_f : nd R -> nd R -> nd R -> R -> result R.      (* predictions, targets, variances, scale *)

Definition peek (t : tref) : M (nd R) := fun h => (h, Ok (read h t)).
Definition call {A} (r : result A) : M A := fun h => (h, r).

Definition mem_objective (views : nat -> bool) (k : mem_kernel) (z : mem_noise) (cur : nat -> R)
  (pairwise crosswise nn_targets targets : tref) (kw : dict R) : M R :=
  let noise := dget kw "noise" in
  do! Kin := mem_kernel_call gamma kv k cur pairwise kw in
  do! Kcross := mem_kernel_call gamma kv k cur crosswise kw in
  do! P1 := mem_perturb (views 0%nat) (views 1%nat) z Kin noise in
  do! p1 := peek P1 in
  do! c1 := peek Kcross in
  do! t1 := peek nn_targets in
  do! mean := call (mean_f p1 c1 t1) in
  do! P2 := mem_perturb (views 2%nat) (views 3%nat) z Kin noise in
  do! p2 := peek P2 in
  do! c2 := peek Kcross in
  do! var := call (var_f p2 c2) in
  do! P3 := mem_perturb (views 4%nat) (views 5%nat) z Kin None in
  do! p3 := peek P3 in
  do! t3 := peek nn_targets in
  do! s := call (scale_f p3 t3) in
  do! tg := peek targets in
  call (loss_f mean tg var s).

(** A history of objective evaluations, as an optimizer makes them: one keyword dictionary each. *)
Fixpoint mem_evaluate (views : nat -> nat -> bool) (k : mem_kernel) (z : mem_noise) (cur : nat -> R)
  (pairwise crosswise nn_targets targets : tref) (kws : list (dict R)) (h : heap)
  : heap * list (result R) :=
  match kws with
  | [] => (h, [])
  | kw :: kws' =>
      let (h1, r) := mem_objective (views (List.length kws')) k z cur pairwise crosswise nn_targets targets kw h in
      let (h2, rs) := mem_evaluate views k z cur pairwise crosswise nn_targets targets kws' h1 in
      (h2, r :: rs)
  end.
End Objective.
