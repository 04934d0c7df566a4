(** Model of the kernel functions (/repo/src/MuyGPyS/_src/gp/kernels/numpy.py), the deformations
    (gp/deformation/isotropy.py, anisotropy.py) and the kernel calls
    (gp/kernels/rbf.py, matern.py).  Values are real numbers; rounding is not modelled. *)
From Verif Require Import Base NdModel RSum HyperModel NamedModel TensorModel.
Local Open Scope R_scope.
Local Open Scope string_scope.

(** ** Elementwise kernel functions *)

(** [_rbf_fn] (numpy.py:12-13). *)
Definition rbf_entry (x : R) : R := exp (- x / 2).
(** [_matern_05_fn] (numpy.py:16-17). *)
Definition m05_entry (x : R) : R := exp (- x).
(** [_matern_15_fn] (numpy.py:20-22). *)
Definition m15_entry (x : R) : R := let K := x * sqrt 3 in (1 + K) * exp (- K).
(** [_matern_25_fn] (numpy.py:25-27). *)
Definition m25_entry (x : R) : R := let K := x * sqrt 5 in (1 + K + K ^ 2 / 3) * exp (- K).
(** [_matern_inf_fn] (numpy.py:30-31). *)
Definition minf_entry (x : R) : R := exp (- (x ^ 2) / 2).

(** [np.finfo(float).eps]. *)
Definition eps64 : R := / (2 ^ 52).

Section Bessel.
(** scipy.special.gamma and kv are external functions. *)
Variable gamma : R -> R.
Variable kv : R -> R -> R.

(** [_matern_gen_fn] (numpy.py:34-43), one entry. *)
Definition gen_entry (nu x : R) : R :=
  let x' := if Reqb x 0 then x + eps64 else x in
  let tmp := sqrt (2 * nu) * x' in
  Rpower 2 (1 - nu) / gamma nu * Rpower tmp nu * kv nu tmp.

(** ** Deformations *)

Inductive deformation :=
| Iso (m : metric) (ls : named)
| DiffIso (m : metric) (ls : named)
| Aniso (m : metric) (ls : nvec).

(** [Isotropy.__call__] (isotropy.py:60-89); an explicit [length_scale] keyword wins. *)
Definition isotropy_call (m : metric) (n : named) (cur : nat -> R) (dists : nd R) (kw : dict R)
  : result (nd R) :=
  let l := match dget kw "length_scale" with Some v => v | None => cur (nm_loc n) end in
  Ok (apply_length_scale m dists l).

(** [DifferenceIsotropy.__call__] (isotropy.py:185-207). *)
Definition diff_isotropy_call (m : metric) (n : named) (cur : nat -> R) (dists : nd R) (kw : dict R)
  : result (nd R) :=
  let l := match dget kw "length_scale" with Some v => v | None => cur (nm_loc n) end in
  metric_call m (ndmap (fun x => x / l) dists).

(** [Anisotropy.__call__] (anisotropy.py:43-70). *)
Definition anisotropy_call (m : metric) (v : nvec) (cur : nat -> R) (dists : nd R) (kw : dict R)
  : result (nd R) :=
  match rev (shape dists) with
  | [] => Err IndexError
  | f :: _ =>
      if negb (Nat.eqb f (List.length (v_elems v))) then Err ValueError
      else let! scaled := bop Rdiv dists (vec 0 (vec_call v cur kw)) in metric_call m scaled
  end.

Definition deform_call (d : deformation) (cur : nat -> R) : nd R -> dict R -> result (nd R) :=
  match d with
  | Iso m n => isotropy_call m n cur
  | DiffIso m n => diff_isotropy_call m n cur
  | Aniso m v => anisotropy_call m v cur
  end.

(** [pairwise_tensor] / [crosswise_tensor] of the deformations (isotropy.py:91-162, 206-277,
    anisotropy.py:72-143); single process (the MPI decorator is modelled in MpiModel). *)
Definition deform_pairwise (d : deformation) (data : nd R) (nn : nd Z) : result (nd R) :=
  match d with
  | Iso m _ => pairwise_distances m data nn
  | _ => pairwise_tensor data nn
  end.

Definition deform_crosswise (d : deformation) (data nn_data : nd R) (ix nn : nd Z) : result (nd R) :=
  match d with
  | Iso m _ => crosswise_distances m data nn_data ix nn
  | _ => crosswise_tensor data nn_data ix nn
  end.

(** [length_scale.apply_embedding_fn(fn, deformation)] (scalar.py:328-335, vector.py:121-129). *)
Definition embed (d : deformation) (fn : nd R -> dict R -> result (nd R))
  (cur : nat -> R) (diffs : nd R) (kw : dict R) : result (nd R) :=
  match d with
  | Iso _ n | DiffIso _ n => named_embed n fn (deform_call d cur) cur diffs kw
  | Aniso _ v => vec_embed v fn (deform_call d cur) cur diffs kw
  end.

(** ** Kernel calls *)

(** [RBF.__call__] (rbf.py:95-111). *)
Definition rbf_call (d : deformation) (cur : nat -> R) (diffs : nd R) (kw : dict R)
  : result (nd R) :=
  embed d (fun x _ => Ok (ndmap rbf_entry x)) cur diffs kw.

(** The backend functions behind the dispatch; [_matern_gen_fn] has a mandatory [smoothness]. *)
Definition matern_backend (c : matern_fn) (x : nd R) (kw : dict R) : result (nd R) :=
  match c with
  | M05 => Ok (ndmap m05_entry x)
  | M15 => Ok (ndmap m15_entry x)
  | M25 => Ok (ndmap m25_entry x)
  | MInf => Ok (ndmap minf_entry x)
  | MGen => match dget kw "smoothness" with
            | Some nu => Ok (ndmap (gen_entry nu) x)
            | None => Err TypeError
            end
  end.

(** [Matern.__call__] (matern.py:148-168): [smoothness.apply_fn] inside the embedding. *)
Definition matern_call (d : deformation) (smooth : named) (c : matern_fn)
  (cur : nat -> R) (diffs : nd R) (kw : dict R) : result (nd R) :=
  embed d (fun x rest => named_apply_fn smooth (matern_backend c x) cur rest) cur diffs kw.

End Bessel.

(** [Kout] of RBF and Matern: squeeze(ones((1,1))) (rbf.py:112-113, matern.py:170-171). *)
Definition kernel_Kout : nd R := squeeze (mkNd [1; 1]%nat (fun _ => 1)).

(** The value a kernel closure reads from a parameter object; only finite values are meaningful
    to the arithmetic (an infinite smoothness is never read: [_matern_inf_fn] ignores it). *)
Definition real_of (v : num) : R := match v with Fin r => r | _ => 0 end.
Definition reals (s : store) (l : nat) : R := real_of (p_val (st_cell s l)).

(** A kernel object called in store [s] (rbf.py:92-110, matern.py:148-168); hierarchical length
    scales are modelled separately (HierModel). *)
Definition kernel_call (gamma : R -> R) (kv : R -> R -> R) (m : metric) (k : kernel) (s : store)
  (diffs : nd R) (kw : dict R) : result (nd R) :=
  match k with
  | KRbf (LSScalar n) => rbf_call (Iso m n) (reals s) diffs kw
  | KRbf (LSVector v) => rbf_call (Aniso m v) (reals s) diffs kw
  | KMatern (LSScalar n) sm c => matern_call gamma kv (Iso m n) sm c (reals s) diffs kw
  | KMatern (LSVector v) sm c => matern_call gamma kv (Aniso m v) sm c (reals s) diffs kw
  | _ => Err NotImplementedError
  end.
