(** Model of _src/gp/muygps/numpy.py (posterior mean, variance, fast prediction). *)
From Verif Require Import Base NdModel RSum LinAlgModel.

(** numpy.py:9-14 [_find_matching_ndim]: np.equal of the target shape with the leading
    part of the kernel shape, counting equal entries at *any* position.  np.equal on
    vectors of different lengths (targets with more axes than Kin) raises ValueError
    (simplification: numpy would still broadcast if one of them had length one). *)
Definition find_matching_ndim (tshape kshape : list nat) : result nat :=
  let ks := firstn (List.length tshape) kshape in
  if List.length ks =? List.length tshape
  then Ok (List.length (filter (fun p => Nat.eqb (fst p) (snd p)) (combine tshape ks)))
  else Err ValueError.

(** Python slice s[: -k]: for k = 0 it is s[:0], i.e. empty. *)
Definition slice_to_neg {A} (s : list A) (k : nat) : list A :=
  if k =? 0 then [] else firstn (List.length s - k) s.

(** numpy.py:17-41 [_muygps_posterior_mean]. *)
Definition posterior_mean (ls : lsolver) (Kin Kcross nn_targets : nd R) : result (nd R) :=
  let! m := find_matching_ndim (shape nn_targets) (shape Kin) in
  let in_shape := skipn m (shape Kin) in
  let out_shape := skipn m (shape Kcross) in
  let batch_shape := slice_to_neg (shape Kin) (2 * List.length in_shape) in
  let extra_shape := skipn (List.length batch_shape + List.length in_shape) (shape nn_targets) in
  let in_size := nprod in_shape in
  let out_size := nprod out_shape in
  let extra_size := nprod extra_shape in
  let! nn_targets_flat := reshape nn_targets (batch_shape ++ [in_size; extra_size]) in
  let! Kin_flat := reshape Kin (batch_shape ++ [in_size; in_size]) in
  let! Kcross_flat := reshape Kcross (batch_shape ++ [in_size; out_size]) in
  let! F_flat := np_solve ls Kin_flat Kcross_flat in
  let! ret := np_matmul (swapaxes_last F_flat) nn_targets_flat in
  reshape ret (batch_shape ++ out_shape ++ extra_shape).

(** numpy.py:44-67 [_muygps_diagonal_variance] (batch_size is the number of batch axes). *)
Definition diagonal_variance (ls : lsolver) (Kin Kcross Kout : nd R) (batch_size : nat) : result (nd R) :=
  let in_dim_count := (ndim Kin - batch_size) / 2 in
  let batch_shape := firstn batch_size (shape Kin) in
  let in_shape := skipn (batch_size + in_dim_count) (shape Kin) in
  let out_shape := skipn (batch_size + in_dim_count) (shape Kcross) in
  let in_size := nprod in_shape in
  let out_size := nprod out_shape in
  let! Kin_flat := reshape Kin (batch_shape ++ [in_size; in_size]) in
  let! Kcross_flat := reshape Kcross (batch_shape ++ [in_size; out_size]) in
  let! F_flat := np_solve ls Kin_flat Kcross_flat in
  let! Kpost := np_matmul (swapaxes_last F_flat) Kcross_flat in
  let! Kpost' := reshape Kpost (batch_shape ++ out_shape ++ out_shape) in
  bop Rminus Kout Kpost'.

(** np.atleast_3d. *)
Definition atleast_3d {A} (t : nd A) : nd A :=
  match shape t with
  | [] => mkNd [1; 1; 1] (fun _ => at_ t [])
  | [n] => mkNd [1; n; 1] (fun idx => match idx with [_; i; _] => at_ t [i] | _ => at_ t [] end)
  | [n; m] => mkNd [n; m; 1] (fun idx => match idx with [i; j; _] => at_ t [i; j] | _ => at_ t [] end)
  | _ => t
  end.

(** np.einsum lets an axis of length one broadcast against the other operand's axis
    carrying the same label; any other mismatch raises ValueError. *)
Definition edim (a b : nat) : option nat :=
  if a =? b then Some a else if a =? 1 then Some b else if b =? 1 then Some a else None.
Definition eix (d i : nat) : nat := if d =? 1 then 0 else i.

(** np.einsum("ij,ijk->ik", A, B). *)
Definition einsum_ij_ijk (A B : nd R) : result (nd R) :=
  match shape A, shape B with
  | [i; j], [i'; j'; k] =>
    match edim i i', edim j j' with
    | Some di, Some dj =>
      Ok (mkNd [di; k] (fun idx => match idx with
           | [a; c] => rsum dj (fun l => at_ A [eix i a; eix j l] * at_ B [eix i' a; eix j' l; c])%R
           | _ => 0%R end))
    | _, _ => Err ValueError
    end
  | _, _ => Err ValueError
  end.

(** np.einsum("ijk,ijk->ik", A, B). *)
Definition einsum_ijk_ijk (A B : nd R) : result (nd R) :=
  match shape A, shape B with
  | [i; j; k], [i'; j'; k'] =>
    match edim i i', edim j j', edim k k' with
    | Some di, Some dj, Some dk =>
      Ok (mkNd [di; dk] (fun idx => match idx with
           | [a; c] => rsum dj (fun l => at_ A [eix i a; eix j l; eix k c]
                                         * at_ B [eix i' a; eix j' l; eix k' c])%R
           | _ => 0%R end))
    | _, _, _ => Err ValueError
    end
  | _, _ => Err ValueError
  end.

(** numpy.py:70-77 [_muygps_fast_posterior_mean]. *)
Definition fast_posterior_mean (Kcross coeffs : nd R) : result (nd R) :=
  let! r := einsum_ij_ijk Kcross (atleast_3d coeffs) in Ok (squeeze r).

(** numpy.py:80-85 [_mmuygps_fast_posterior_mean]. *)
Definition mm_fast_posterior_mean (Kcross coeffs : nd R) : result (nd R) :=
  einsum_ijk_ijk Kcross coeffs.

(** t[:, :, None] for a two-axis array. *)
Definition expand_last {A} (t : nd A) : nd A :=
  mkNd (shape t ++ [1]) (fun idx => at_ t (removelast idx)).

(** numpy.py:88-95 [_muygps_fast_posterior_mean_precompute]. *)
Definition fast_precompute (ls : lsolver) (Kin targets : nd R) : result (nd R) :=
  let targets' := if ndim targets =? 2 then expand_last targets else targets in
  let! r := np_solve ls Kin targets' in Ok (squeeze r).

(** _src/optimize/scale/numpy.py:9-15 [_analytic_scale_optim_unnormalized]. *)
Definition analytic_scale_unnormalized (ls : lsolver) (Kin nn_targets : nd R) : result R :=
  let t := atleast_3d nn_targets in
  let! s := np_solve ls Kin t in
  let! e := einsum_ijk_ijk t s in
  Ok (rsum (nprod (shape e)) (fun q => at_ e (unravel (shape e) q))).

(** _src/optimize/scale/numpy.py:18-34 [_analytic_scale_optim] (batch_dim_count = 1 is the
    only value any caller passes). *)
Definition analytic_scale (ls : lsolver) (Kin nn_targets : nd R) : result R :=
  let batch_dim_count := 1 in
  let in_dim_count := (ndim Kin - batch_dim_count) / 2 in
  let batch_shape := firstn batch_dim_count (shape Kin) in
  let in_shape := skipn (batch_dim_count + in_dim_count) (shape Kin) in
  let batch_size := nprod batch_shape in
  let in_size := nprod in_shape in
  let! Kin_flat := reshape Kin (batch_shape ++ [in_size; in_size]) in
  let! nn_targets_flat := reshape nn_targets (batch_shape ++ [in_size; 1]) in
  let! u := analytic_scale_unnormalized ls Kin_flat nn_targets_flat in
  Ok (u / INR (batch_size * in_size))%R.
