(** Model of the numpy tensor construction functions
    (/repo/src/MuyGPyS/_src/gp/tensors/numpy.py) and of the metrics
    (gp/deformation/metric.py). *)
From Verif Require Import Base NdModel RSum.

(** numpy integer indexing on an axis of length [n]: negative indices wrap, others are errors. *)
Definition norm_index (n : nat) (i : Z) : option nat :=
  if (0 <=? i)%Z && (i <? Z.of_nat n)%Z then Some (Z.to_nat i)
  else if (- Z.of_nat n <=? i)%Z && (i <? 0)%Z then Some (Z.to_nat (i + Z.of_nat n))
  else None.

(** Every multi-index of a shape, in row-major order. *)
Definition all_idx (sh : list nat) : list (list nat) := map (unravel sh) (seq 0 (nprod sh)).

(** Fancy indexing [data[indices]] on the first axis (numpy.py:15, 43, 53-54, 65).
    0-d data cannot be indexed (IndexError). *)
Definition take {A} (data : nd A) (indices : nd Z) : result (nd A) :=
  match shape data with
  | [] => Err IndexError
  | n :: rest =>
      if forallb (fun ix => match norm_index n (at_ indices ix) with Some _ => true | None => false end)
                 (all_idx (shape indices))
      then Ok (mkNd (shape indices ++ rest)
                 (fun idx =>
                    let p := List.length (shape indices) in
                    let i := match norm_index n (at_ indices (firstn p idx)) with
                             | Some i => i | None => 0 end in
                    at_ data (i :: skipn p idx)))
      else Err IndexError
  end.

(** Insert an axis of length one at position [k] (indexing with [None]). *)
Definition newaxis {A} (k : nat) (t : nd A) : nd A :=
  mkNd (firstn k (shape t) ++ 1 :: skipn k (shape t))
       (fun idx => at_ t (firstn k idx ++ skipn (S k) idx)).

(** [_make_heteroscedastic_tensor] (numpy.py:11-15). *)
Definition make_heteroscedastic_tensor (noise : nd R) (nn : nd Z) : result (nd R) := take noise nn.

(** [_batch_features_tensor] (numpy.py:40-44). *)
Definition batch_features_tensor (features : nd R) (idx : nd Z) : result (nd R) := take features idx.

(** [_crosswise_tensor] (numpy.py:47-58). *)
Definition crosswise_tensor (data nn_data : nd R) (indices nn_indices : nd Z) : result (nd R) :=
  let! locations := take data indices in
  let! points := take nn_data nn_indices in
  if Nat.eqb (ndim data) 1
  then bop Rminus
         (let l1 := newaxis (ndim locations) locations in newaxis (ndim l1) l1)
         (newaxis (ndim points) points)
  else bop Rminus (newaxis (ndim locations - 1) locations) points.

(** [_pairwise_tensor] (numpy.py:61-69). *)
Definition pairwise_tensor (data : nd R) (nn_indices : nd Z) : result (nd R) :=
  let! points := take data nn_indices in
  if Nat.eqb (ndim data) 1
  then bop Rminus
         (let p1 := newaxis (ndim points) points in newaxis (ndim p1) p1)
         (let p1 := newaxis (ndim points - 1) points in newaxis (ndim p1) p1)
  else if Nat.leb (ndim points) 1 then Err IndexError
  else bop Rminus (newaxis (ndim points - 1) points) (newaxis (ndim points - 2) points).

(** [np.sum(t ** 2, axis=-1)] ([_F2], numpy.py:89-90) and [_l2] (numpy.py:93-94). *)
Definition F2_fn (diffs : nd R) : result (nd R) :=
  match rev (shape diffs) with
  | [] => Err ValueError
  | f :: r => Ok (mkNd (rev r) (fun idx => rsum f (fun k => at_ diffs (idx ++ [k]) ^ 2)%R))
  end.

Definition l2_fn (diffs : nd R) : result (nd R) :=
  let! s := F2_fn diffs in Ok (ndmap sqrt s).

(** [_fast_nn_update] (numpy.py:97-108): prepend each row's own index, drop the last column. *)
Definition fast_nn_update (nn : nd Z) : nd Z :=
  match shape nn with
  | [n; k] => mkNd [n; S (k - 1)] (fun idx => match idx with
      | [i; O] => Z.of_nat i
      | [i; S j] => at_ nn [i; j]
      | _ => 0%Z end)
  | _ => nn
  end.

(** [_make_fast_predict_tensors] (numpy.py:18-37).  The row numbers are [arange(0, num_train)] with
    [num_train = train_features.shape[0]], so np.concatenate raises ValueError unless the index
    matrix has one row per training point; [shape[0]] of a scalar array is an IndexError and slicing
    [batch_nn_indices[:, :-1]] of a one-axis array too. *)
Definition make_fast_predict_tensors (nn : nd Z) (features targets : nd R)
  : result (nd R * nd R) :=
  let! _ := match shape features, shape nn with
            | m :: _, [n; _] => if (n =? m)%nat then Ok tt else Err ValueError
            | [], _ => Err IndexError
            | _, [] | _, [_] => Err IndexError
            | _, _ => Err ValueError
            end in
  let nn_fast := fast_nn_update nn in
  let! pw := pairwise_tensor features nn_fast in
  let! tg := take targets nn_fast in
  Ok (pw, tg).

(** ** Metrics (gp/deformation/metric.py:14-73, 237-265) *)
Inductive metric := L2 | F2.

(** [metric.__call__] (metric.py:68-69). *)
Definition metric_call (m : metric) (diffs : nd R) : result (nd R) :=
  match m with L2 => l2_fn diffs | F2 => F2_fn diffs end.

(** [apply_length_scale_fn]: x / y for l2 (metric.py:241), x / y**2 for F2 (metric.py:264). *)
Definition scale_entry (m : metric) (l x : R) : R :=
  match m with L2 => (x / l)%R | F2 => (x / l ^ 2)%R end.

Definition apply_length_scale (m : metric) (dists : nd R) (l : R) : nd R :=
  ndmap (scale_entry m l) dists.

(** [crosswise_distances] / [pairwise_distances] (metric.py:113-158, 190-220). *)
Definition crosswise_distances (m : metric) (data nn_data : nd R) (indices nn_indices : nd Z) :=
  let! d := crosswise_tensor data nn_data indices nn_indices in metric_call m d.

Definition pairwise_distances (m : metric) (data : nd R) (nn_indices : nd Z) :=
  let! d := pairwise_tensor data nn_indices in metric_call m d.
