(** Model of _src/gp/kernels/shear/numpy.py (shared by the mpi backend, which re-exports it)
    and of gp/kernels/experimental/shear.py. *)
From Verif Require Import Base NdModel RSum LinAlgModel GPModel NoiseModel MuyGPSModel TensorModel.
Local Open Scope R_scope.

(** ** The six scalar formulas (numpy.py:10-101), applied entry by entry. *)

(** numpy.py:10-26 [_kk_fn]. *)
Definition kk_fn (e sum_sq prod_sq sum_quad l : R) : R :=
  0.25 * ((8 * l ^ 2 - 8 * l * sum_sq + 2 * prod_sq + sum_quad) * e / l ^ 4).
(** numpy.py:29-39 [_kg1_fn]. *)
Definition kg1_fn (e diff_xy_quad diff_yx_sq l : R) : R :=
  0.25 * ((6 * l * diff_yx_sq + diff_xy_quad) * e / l ^ 4).
(** numpy.py:42-54 [_kg2_fn]. *)
Definition kg2_fn (e sum_sq prod_d l : R) : R := 0.5 * prod_d * (-6 * l + sum_sq) * e / l ^ 4.
(** numpy.py:57-73 [_g1g1_fn]. *)
Definition g1g1_fn (e sum_sq sum_quad prod_sq l : R) : R :=
  0.25 * ((4 * l ^ 2 - 4 * l * sum_sq - 2 * prod_sq + sum_quad) * e / l ^ 4).
(** numpy.py:76-88 [_g1g2_fn]. *)
Definition g1g2_fn (e diff_xy_sq prod_d l : R) : R := 0.5 * prod_d * diff_xy_sq * e / l ^ 4.
(** numpy.py:91-101 [_g2g2_fn]. *)
Definition g2g2_fn (e sum_sq prod_sq l : R) : R := (l ^ 2 - l * sum_sq + prod_sq) * e / l ^ 4.

(** np.prod over an axis of length n. *)
Fixpoint rprod (n : nat) (f : nat -> R) : R :=
  match n with O => 1 | S k => rprod k f * f k end.

(** Arrays whose last axis is an entry vector: [t[..., k]] at index [idx]. *)
Section intermediates.
  Variable diffs : nd R.
  Variable d : nat.   (* diffs.shape[-1] *)
  Variable l : R.     (* length_scale *)
  Let x (idx : list nat) (k : nat) : R := at_ diffs (idx ++ [k]).
  (** numpy.py:114-124 (same lines in Kin23 175-182 and Kcross23 218-227): the intermediate
      difference tensors, each of shape diffs.shape[:-1]. *)
  Definition prod_diffs idx : R := rprod d (x idx).
  Definition sq_diffs idx k : R := x idx k ^ 2.
  Definition quad_diffs idx k : R := sq_diffs idx k ^ 2.
  Definition sum_sq_diffs idx : R := rsum d (sq_diffs idx).
  Definition prod_sq_diffs idx : R := rprod d (sq_diffs idx).
  Definition sum_quad_diffs idx : R := rsum d (quad_diffs idx).
  Definition diff_yx_sq_diffs idx : R := sq_diffs idx 1 - sq_diffs idx 0.
  Definition diff_xy_sq_diffs idx : R := sq_diffs idx 0 - sq_diffs idx 1.
  Definition diff_xy_quad_diffs idx : R := quad_diffs idx 0 - quad_diffs idx 1.
  Definition exp_diffs idx : R := exp (- sum_sq_diffs idx / (2 * l)).

  Definition kk idx := kk_fn (exp_diffs idx) (sum_sq_diffs idx) (prod_sq_diffs idx) (sum_quad_diffs idx) l.
  Definition kg1 idx := kg1_fn (exp_diffs idx) (diff_xy_quad_diffs idx) (diff_yx_sq_diffs idx) l.
  Definition kg2 idx := kg2_fn (exp_diffs idx) (sum_sq_diffs idx) (prod_diffs idx) l.
  Definition g1g1 idx := g1g1_fn (exp_diffs idx) (sum_sq_diffs idx) (sum_quad_diffs idx) (prod_sq_diffs idx) l.
  Definition g1g2 idx := g1g2_fn (exp_diffs idx) (diff_xy_sq_diffs idx) (prod_diffs idx) l.
  Definition g2g2 idx := g2g2_fn (exp_diffs idx) (sum_sq_diffs idx) (prod_sq_diffs idx) l.
End intermediates.

(** [full_m[..., a, :, c, :] = v] where v is an array over prefix + (n, m). *)
Definition set_block (full : nd R) (a c : nat) (v : list nat -> R) : nd R :=
  mkNd (shape full) (fun idx =>
    let k := (List.length idx - 4)%nat in
    match skipn k idx with
    | [a'; i; c'; j] => if (a' =? a)%nat && (c' =? c)%nat then v (firstn k idx ++ [i; j]) else at_ full idx
    | _ => at_ full idx
    end).

(** The common frame of the three functions (e.g. numpy.py:105-112, 162): assert the number
    of axes, allocate zeros of shape prefix + (p, n, q, m), fill, squeeze.  Indexing
    [sq_diffs[..., 1]] on fewer than two features raises IndexError. *)
Definition shear_frame (p q : nat) (fill : nd R -> nat -> nd R -> nd R) (diffs : nd R) : result (nd R) :=
  match rev (shape diffs) with
  | d :: m :: n :: r =>
    if (d <? 2)%nat then Err IndexError
    else Ok (squeeze (fill diffs d (mkNd (rev r ++ [p; n; q; m]) (fun _ => 0))))
  | _ => Err AssertionError
  end.

(** numpy.py:105-162 [_shear_33_fn].  [A[i] = A[j] = v] assigns the first target first. *)
Definition shear_33_fn (l : R) : nd R -> result (nd R) :=
  shear_frame 3 3 (fun t d f =>
    let f := set_block f 0 0 (kk t d l) in
    let f := set_block (set_block f 0 1 (kg1 t d l)) 1 0 (kg1 t d l) in
    let f := set_block (set_block f 0 2 (kg2 t d l)) 2 0 (kg2 t d l) in
    let f := set_block f 1 1 (g1g1 t d l) in
    let f := set_block (set_block f 1 2 (g1g2 t d l)) 2 1 (g1g2 t d l) in
    set_block f 2 2 (g2g2 t d l)).

(** numpy.py:166-205 [_shear_Kin23_fn]. *)
Definition shear_Kin23_fn (l : R) : nd R -> result (nd R) :=
  shear_frame 2 2 (fun t d f =>
    let f := set_block f 0 0 (g1g1 t d l) in
    let f := set_block (set_block f 0 1 (g1g2 t d l)) 1 0 (g1g2 t d l) in
    set_block f 1 1 (g2g2 t d l)).

(** numpy.py:210-260 [_shear_Kcross23_fn]. *)
Definition shear_Kcross23_fn (l : R) : nd R -> result (nd R) :=
  shear_frame 2 3 (fun t d f =>
    let f := set_block f 0 0 (kg1 t d l) in
    let f := set_block f 1 0 (kg2 t d l) in
    let f := set_block f 0 1 (g1g1 t d l) in
    let f := set_block (set_block f 0 2 (g1g2 t d l)) 1 1 (g1g2 t d l) in
    set_block f 1 2 (g2g2 t d l)).

(** ** The kernel functors (shear.py) *)

(** [length_scale] keyword, or the deformation's current value (shear.py:102-109, 216-239). *)
Definition pick (cur : R) (kw : option R) : R := match kw with Some v => v | None => cur end.

(** diffs[..., None, :] (shear.py:129, 263). *)
Definition insert_axis (t : nd R) : nd R :=
  match rev (shape t) with
  | d :: r => mkNd (rev r ++ [1%nat; d])
      (fun idx => let k := (List.length idx - 2)%nat in at_ t (firstn k idx ++ skipn (S k) idx))
  | [] => t
  end.

(** [diffs.shape[-2] != diffs.shape[-3]]; a missing axis raises IndexError. *)
Definition looks_crosswise (t : nd R) : result bool :=
  match rev (shape t) with
  | _ :: m :: n :: _ => Ok (negb (m =? n)%nat)
  | _ => Err IndexError
  end.

(** shear.py:111-130 [ShearKernel.__call__]. *)
Definition shear33_call (cur : R) (diffs : nd R) (adjust : bool) (length_scale : option R) : result (nd R) :=
  let l := pick cur length_scale in
  if adjust then
    let! x := looks_crosswise diffs in
    shear_33_fn l (if x then insert_axis diffs else diffs)
  else shear_33_fn l diffs.

(** shear.py:132-133 [ShearKernel.Kout]: keyword arguments are dropped. *)
Definition shear33_Kout (cur : R) (length_scale : option R) : result (nd R) :=
  shear33_call cur (mkNd [1; 1; 2]%nat (fun _ => 0)) true None.

(** shear.py:241-265 [ShearKernel2in3out.__call__]. *)
Definition shear23_call (cur : R) (diffs : nd R) (adjust force_Kcross : bool) (length_scale : option R)
  : result (nd R) :=
  let l := pick cur length_scale in
  if force_Kcross then shear_Kcross23_fn l diffs
  else if adjust then
    let! x := looks_crosswise diffs in
    if x then shear_Kcross23_fn l (insert_axis diffs) else shear_Kin23_fn l diffs
  else shear_Kin23_fn l diffs.

(** shear.py:267-268 [ShearKernel2in3out.Kout]. *)
Definition shear23_Kout (cur : R) (length_scale : option R) : result (nd R) :=
  shear_33_fn cur (mkNd [1; 1; 2]%nat (fun _ => 0)).

(** shear.py:78-96 and 188-210: the constructors accept only DifferenceIsotropy deformations. *)
Inductive deform_class := CIsotropy | CDifferenceIsotropy | CAnisotropy.
Definition shear_ctor (c : deform_class) : result unit :=
  match c with CDifferenceIsotropy => Ok tt | _ => Err ValueError end.

(** ** Prediction with a shear model (the workflow of tests/experimental/shear.py:285-345) *)
Inductive shear_model := Full33 | Two23.
Definition shear_call (k : shear_model) (cur : R) (diffs : nd R) : result (nd R) :=
  match k with Full33 => shear33_call cur diffs true None | Two23 => shear23_call cur diffs true false None end.
(** How many leading observables (rows of the swapped targets) are not observed. *)
Definition unobserved (k : shear_model) : nat := match k with Full33 => 0 | Two23 => 1 end.

(** t[:, s:, :]. *)
Definition drop_rows (s : nat) (t : nd R) : nd R :=
  match shape t with
  | b :: p :: r => mkNd (b :: p - s :: r)%nat
      (fun idx => match idx with x :: a :: i => at_ t (x :: s + a :: i)%nat | _ => at_ t idx end)
  | _ => t
  end.

(** gp/muygps.py:460-475 [make_predict_tensors] (differences, since the deformation is a
    DifferenceIsotropy), targets moved to (batch, observable, neighbour) by
    swapaxes(-2, -1) and the unobserved rows dropped (tests/experimental/shear.py:301, 404),
    then gp/mean.py and gp/variance.py. *)
Definition shear_tensors (k : shear_model) (cur : R) (test train targets : nd R) (ix nn : nd Z)
  : result (nd R * nd R * nd R) :=
  let! c := crosswise_tensor test train ix nn in
  let! p := pairwise_tensor train nn in
  let! T := take targets nn in
  let! Kcross := shear_call k cur c in
  let! Kin := shear_call k cur p in
  Ok (Kin, Kcross, drop_rows (unobserved k) (swapaxes_last T)).

Definition shear_predict (ls : lsolver) (k : shear_model) (cur : R) (noise : noise_model)
  (test train targets : nd R) (ix nn : nd Z) : result (nd R) :=
  let! (Kin, Kcross, T) := shear_tensors k cur test train targets ix nn in
  let! K := perturb noise Kin None in
  posterior_mean ls K Kcross T.

(** The unscaled posterior variance; [Kout] is evaluated when the model is made. *)
Definition shear_variance (ls : lsolver) (k : shear_model) (cur : R) (noise : noise_model)
  (test train targets : nd R) (ix nn : nd Z) : result (nd R) :=
  let! (Kin, Kcross, _) := shear_tensors k cur test train targets ix nn in
  let! K := perturb noise Kin None in
  let! Kout := match k with Full33 => shear33_Kout cur None | Two23 => shear23_Kout cur None end in
  diagonal_variance ls K Kcross Kout 1.

(** The variance function the optimizer calls (gp/variance.py:33-43 [_opt_fn], bound by
    gp/muygps.py:117-120 when the model was made with length scale [cur]) on kernel tensors
    evaluated at a candidate length scale [cand]. *)
Definition shear_opt_variance (ls : lsolver) (k : shear_model) (cur cand : R) (noise : noise_model)
  (test train targets : nd R) (ix nn : nd Z) : result (nd R) :=
  let! (Kin, Kcross, _) := shear_tensors k cand test train targets ix nn in
  let! K := perturb noise Kin None in
  let! Kout := match k with Full33 => shear33_Kout cur (Some cand) | Two23 => shear23_Kout cur (Some cand) end in
  diagonal_variance ls K Kcross Kout 1.
