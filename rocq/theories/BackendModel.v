(** Model of the jax and torch implementations: _src/gp/{tensors,kernels,kernels/shear,noise,muygps}/{jax,torch}.py,
    _src/optimize/{scale,loss,chassis}/{jax,torch}.py and the parts of _src/math/{jax,torch,meta}.py they use.
    Functions that are textually the numpy function with another array library are the numpy model; only those that differ are written
    again.  The array primitives of the three libraries are taken to agree where their documentation says so; the differences
    modelled are out-of-range indices, arithmetic with tuples, the wrapped [torch.sum], and [solve] with a stack of vectors. *)
From Verif Require Import Base NdModel RSum LinAlgModel GPModel NoiseModel TensorModel KernelModel NamedModel LossModel ShearModel.
Local Open Scope R_scope.

(** ** Indexing *)

(** jax never raises for an integer index array: negative indices wrap once, then everything is clamped into the axis. *)
Definition clamp_index (n : nat) (i : Z) : nat :=
  let j := if (i <? 0)%Z then (i + Z.of_nat n)%Z else i in
  Z.to_nat (Z.min (Z.max j 0) (Z.of_nat n - 1)).
(** [data[indices]] in jax (simplification: an empty first axis is reported as IndexError). *)
Definition jx_take {A} (data : nd A) (indices : nd Z) : result (nd A) :=
  match shape data with
  | [] | O :: _ => Err IndexError
  | n :: rest => Ok (mkNd (shape indices ++ rest) (fun idx =>
      let p := List.length (shape indices) in
      at_ data (clamp_index n (at_ indices (firstn p idx)) :: skipn p idx)))
  end.
(** torch indexes like numpy. *)
Definition to_take {A} : nd A -> nd Z -> result (nd A) := take.

(** ** Tensors (tensors/jax.py, tensors/torch.py: the same text after indexing) *)

(** jax.py:66-70, torch.py:66-69 [_crosswise_differences]: locations[:, None, :] - points; too many indices for fewer than two axes. *)
Definition bk_crosswise_differences (locations points : nd R) : result (nd R) :=
  if (ndim locations <? 2)%nat then Err IndexError else bop Rminus (newaxis 1 locations) points.
(** jax.py:73-80, torch.py:72-78 [_pairwise_differences]. *)
Definition bk_pairwise_differences (points : nd R) : result (nd R) :=
  match ndim points with
  | 3%nat => bop Rminus (newaxis 2 points) (newaxis 1 points)
  | 2%nat => bop Rminus (newaxis 1 points) (newaxis 0 points)
  | _ => Err ValueError
  end.
(** jax.py:53-63 and 83-90; torch.py:47-66. *)
Definition jx_crosswise_tensor (data nn_data : nd R) (ix nn : nd Z) : result (nd R) :=
  let! l := jx_take data ix in let! p := jx_take nn_data nn in bk_crosswise_differences l p.
Definition to_crosswise_tensor (data nn_data : nd R) (ix nn : nd Z) : result (nd R) :=
  let! l := to_take data ix in let! p := to_take nn_data nn in bk_crosswise_differences l p.
Definition jx_pairwise_tensor (data : nd R) (nn : nd Z) : result (nd R) :=
  let! p := jx_take data nn in bk_pairwise_differences p.
Definition to_pairwise_tensor (data : nd R) (nn : nd Z) : result (nd R) :=
  let! p := to_take data nn in bk_pairwise_differences p.

(** ** Kernels *)
Section Bessel.
Variable gamma : R -> R.
(** tfp.math.bessel_kve. *)
Variable kve : R -> R -> R.
(** kernels/jax.py:40-58 [_matern_gen_fn], one entry away from the diagonal; gammaln is the logarithm of gamma.  The power and
    the Bessel function are floats: at distance zero the power is 0 and kve is infinite, and their product is nan ([NaN]). *)
Definition jx_gen_entry (nu x : R) : num :=
  if Reqb x 0 then NaN
  else let tmp := sqrt (2 * nu) * x in
       Fin (Rpower 2 (1 - nu) / exp (ln (gamma nu)) * Rpower tmp nu * (kve nu tmp / exp (Rabs tmp))).
(** Three axes: the diagonal is set to one.  Simplification: the length check of the diagonal against the last axis is omitted
    (every caller passes square matrices or two axes); other ranks are not followed (jax would keep [dists] as the factor). *)
Definition jx_matern_gen (dists : nd R) (nu : R) : result (nd num) :=
  match shape dists with
  | [_; _] => Ok (ndmap (jx_gen_entry nu) dists)
  | [_; _; _] => Ok (mkNd (shape dists) (fun idx => match idx with
      | [b; i; j] => if (i =? j)%nat then Fin 1 else jx_gen_entry nu (at_ dists idx)
      | _ => NaN end))
  | _ => Err ValueError
  end.
End Bessel.

(** kernels/torch.py:1-32: the closed forms are numpy's, the general one is not implemented. *)
Definition to_matern_backend (c : matern_fn) (x : nd R) : result (nd R) :=
  match c with
  | M05 => Ok (ndmap m05_entry x)
  | M15 => Ok (ndmap m15_entry x)
  | M25 => Ok (ndmap m25_entry x)
  | MInf => Ok (ndmap minf_entry x)
  | MGen => Err NotImplementedError
  end.

(** kernels/shear/{jax,torch}.py [_shear_33_fn]: numpy's without the final squeeze; the two-channel functions are not
    implemented.  Copying block (0, 1) into (1, 0) after setting it is setting both. *)
Definition bk_shear_frame (p q : nat) (fill : nd R -> nat -> nd R -> nd R) (diffs : nd R) : result (nd R) :=
  match rev (shape diffs) with
  | d :: m :: n :: r =>
    if (d <? 2)%nat then Err IndexError
    else Ok (fill diffs d (mkNd (rev r ++ [p; n; q; m]) (fun _ => 0)))
  | _ => Err AssertionError
  end.
Definition bk_shear_33_fn (l : R) : nd R -> result (nd R) :=
  bk_shear_frame 3 3 (fun t d f =>
    let f := set_block f 0 0 (kk t d l) in
    let f := set_block (set_block f 0 1 (kg1 t d l)) 1 0 (kg1 t d l) in
    let f := set_block (set_block f 0 2 (kg2 t d l)) 2 0 (kg2 t d l) in
    let f := set_block f 1 1 (g1g1 t d l) in
    let f := set_block (set_block f 1 2 (g1g2 t d l)) 2 1 (g1g2 t d l) in
    set_block f 2 2 (g2g2 t d l)).

(** ** Prediction *)

(** muygps/jax.py:46-72: Kcross[:, :, None]; the result is reshaped to the batch (and the responses). *)
Definition jx_mean_univariate (ls : lsolver) (Kin Kcross T : nd R) : result (nd R) :=
  match shape Kin with
  | b :: _ =>
    let! F := np_solve ls Kin (expand_last Kcross) in
    let! ret := np_matmul (swapaxes_last F) (expand_last T) in
    reshape ret [b]
  | [] => Err IndexError
  end.
Definition jx_mean_diagonal (ls : lsolver) (Kin Kcross T : nd R) : result (nd R) :=
  match shape Kin with
  | b :: _ =>
    let r := last (shape T) O in
    let! F := np_solve ls Kin (expand_last Kcross) in
    let! ret := np_matmul (swapaxes_last F) T in
    reshape ret [b; r]
  | [] => Err IndexError
  end.
(** A (b, p, m) stack times a (m', q) matrix: the matrix is broadcast over the stack; TypeError unless m = m'. *)
Definition matmul_stack_matrix (A B : nd R) : result (nd R) :=
  match shape A, shape B with
  | [b; p; m], [m'; q] =>
    if (m =? m')%nat then Ok (mkNd [b; p; q] (fun idx => match idx with
      | [x; i; j] => rsum m (fun l => at_ A [x; i; l] * at_ B [l; j]) | _ => 0 end))
    else Err TypeError
  | _, _ => Err TypeError
  end.
(** muygps/jax.py:75-93: note that the flattened targets have two axes. *)
Definition jx_mean_multivariate (ls : lsolver) (Kin Kcross T : nd R) : result (nd R) :=
  match shape Kin with
  | b :: n :: r :: _ =>
    let out := last (shape Kcross) O in
    let! K := reshape Kin [b; n * r; n * r]%nat in
    let! C := reshape Kcross [b; n * r; out]%nat in
    let! t := reshape T [b; n * r]%nat in
    let! F := np_solve ls K C in
    let! ret := matmul_stack_matrix (swapaxes_last F) t in
    reshape ret [b; out]
  | _ => Err ValueError
  end.
(** muygps/jax.py:24-44 [_muygps_posterior_mean]. *)
Definition jx_posterior_mean (ls : lsolver) (Kin Kcross T : nd R) : result (nd R) :=
  if (ndim Kin =? 3)%nat then
    if (ndim T =? 2)%nat then jx_mean_univariate ls Kin Kcross T
    else if (ndim T =? 3)%nat then jx_mean_diagonal ls Kin Kcross T
    else Err ValueError
  else jx_mean_multivariate ls Kin Kcross T.

(** muygps/jax.py:96-150 [_muygps_diagonal_variance]. *)
Definition jx_diagonal_variance (ls : lsolver) (Kin Kcross Kout : nd R) : result (nd R) :=
  match shape Kin with
  | [b; _; _] =>
    let C := expand_last Kcross in
    let! F := np_solve ls Kin C in
    let! P := np_matmul (swapaxes_last F) C in
    let! P' := reshape P [b] in
    bop Rminus Kout P'
  | [b; n; r; _; _] =>
    let out := last (shape Kcross) O in
    let! K := reshape Kin [b; n * r; n * r]%nat in
    let! C := reshape Kcross [b; n * r; out]%nat in
    let! F := np_solve ls K C in
    let! P := np_matmul (swapaxes_last F) C in
    let! P' := reshape P [b; out; out] in
    bop Rminus Kout P'
  | _ => Err ValueError
  end.

(** muygps/torch.py:17-67 is numpy's text. *)
Definition to_posterior_mean : lsolver -> nd R -> nd R -> nd R -> result (nd R) := posterior_mean.
Definition to_diagonal_variance : lsolver -> nd R -> nd R -> nd R -> nat -> result (nd R) := diagonal_variance.

(** muygps/jax.py:169-175, muygps/torch.py:87-91 [_muygps_fast_posterior_mean_precompute]: a stack of vectors is solved vector by vector
    (torch's documented rule; jax's before numpy-2 semantics); no squeeze. *)
Definition bk_fast_precompute (ls : lsolver) (Kin T : nd R) : result (nd R) :=
  if (ndim T =? 2)%nat then
    let! r := np_solve ls Kin (expand_last T) in reshape r (shape T)
  else np_solve ls Kin T.
(** muygps/jax.py:153-166, torch.py:70-84 are numpy's text ([fast_posterior_mean], [mm_fast_posterior_mean]). *)

(** ** Scale *)

(** scale/jax.py:21-55 [_analytic_scale_optim]: asserts on the number of axes of the targets; in the five-axis case the first three
    axes (batch, observables, neighbours) are read as (batch, nn, response), and the sum is divided by batch * nn. *)
Definition jx_analytic_scale (ls : lsolver) (Kin T : nd R) : result R :=
  match shape Kin with
  | [b; n; _] =>
    if (ndim T =? 2)%nat then
      let! u := analytic_scale_unnormalized ls Kin T in Ok (u / INR (b * n))
    else Err AssertionError
  | [b; n; r; _; _] =>
    if (ndim T =? 3)%nat then
      let! K := reshape Kin [b; n * r; n * r]%nat in
      let! t := reshape T [b; n * r]%nat in
      let! u := analytic_scale_unnormalized ls K t in Ok (u / INR (b * n))
    else Err AssertionError
  | _ => Err ValueError
  end.

(** math/meta.py:28-33 with math/torch.py:88-90: the wrapped torch.sum sums over axis 0 when no axis is given. *)
Definition to_sum (t : nd R) : nd R :=
  match shape t with
  | [] => t
  | b :: r => mkNd r (fun idx => rsum b (fun i => at_ t (i :: idx)))
  end.

(** scale/torch.py:9-39. *)
Definition to_analytic_scale_unnormalized (ls : lsolver) (Kin nn_targets : nd R) : result (nd R) :=
  let t := atleast_3d nn_targets in
  let! s := np_solve ls Kin t in
  let! e := einsum_ijk_ijk t s in
  Ok (to_sum e).
Definition to_analytic_scale (ls : lsolver) (Kin nn_targets : nd R) : result (nd R) :=
  let in_dim_count := ((ndim Kin - 1) / 2)%nat in
  let batch_shape := firstn 1 (shape Kin) in
  let in_shape := skipn (1 + in_dim_count) (shape Kin) in
  let! K := reshape Kin (batch_shape ++ [nprod in_shape; nprod in_shape]) in
  let! t := reshape nn_targets (batch_shape ++ [nprod in_shape; 1%nat]) in
  let! u := to_analytic_scale_unnormalized ls K t in
  Ok (ndmap (fun x => x / INR (nprod batch_shape * nprod in_shape)) u).

(** ** Losses *)

(** loss/jax.py:24-45 [_log_loss]: clipped, then each row divided by its sum. *)
Definition jx_log_loss (eps : R) (y_true y_pred : nd R) : result R :=
  match shape y_pred with
  | [b; k] =>
    let p i j := clip eps (at_ y_pred [i; j]) in
    let q := mkNd [b; k] (fun idx => match idx with [i; j] => ln (p i j / rsum k (p i)) | _ => 0 end) in
    let! w := bop Rmult y_true q in
    match shape w with
    | [b'; k'] => Ok (nd_sum (mkNd [b'] (fun idx => match idx with [i] => - rsum k' (fun j => at_ w [i; j]) | _ => 0 end)))
    | _ => Err ValueError
    end
  | _ => Err ValueError
  end.
(** loss/jax.py:12-21 [_cross_entropy_fn]. *)
Definition jx_cross_entropy (eps : R) (predictions targets : nd R) : result R :=
  let one_hot := ndmap (fun x => if Rltb 0 x then 1 else 0) targets in
  let! sm := softmax predictions in
  jx_log_loss eps one_hot sm.
(** loss/torch.py:9-21 [_cross_entropy_fn]: the mean over all entries of a binary cross entropy, times the batch size.  Logarithms
    of probabilities that round to 0 or 1 are infinite in floats; with real numbers softmax values lie strictly between when
    there are two or more classes. *)
Definition to_cross_entropy (predictions targets : nd R) : result R :=
  let one_hot := ndmap (fun x => if Rltb 0 x then 1 else 0) targets in
  let! sm := softmax predictions in
  let! a := bop Rmult one_hot (ndmap ln sm) in
  let! b := bop Rmult (ndmap (fun y => 1 - y) one_hot) (ndmap (fun p => ln (1 - p)) sm) in
  let! t := bop Rplus a b in
  match shape one_hot with
  | n :: _ => Ok (- (nd_sum t / INR (nprod (shape t))) * INR n)
  | [] => Err IndexError
  end.

(** loss/torch.py:24-36: [torch.sum] here is the wrapped one. *)
Definition to_mse_unnormalized (predictions targets : nd R) : result (nd R) :=
  let! r := bop Rminus predictions targets in
  Ok (to_sum (ndmap (fun x => x ^ 2) r)).
Definition to_mse (predictions targets : nd R) : result (nd R) :=
  let! s := to_mse_unnormalized predictions targets in
  Ok (ndmap (fun x => x / INR (nprod (shape predictions))) s).

(** loss/jax.py:78-97 and loss/torch.py:48-65 [_lool_fn_unscaled]: three axes take the matrix branch, in which adding the
    (sign, logdet) tuple to an array is a TypeError in both libraries; otherwise entrywise, with broadcasting. *)
Definition bk_lool_terms (ls : lsolver) (predictions targets variances : nd R) : result (nd R) :=
  if (ndim variances =? 3)%nat then
    let! r := bop Rminus predictions targets in
    let residual := atleast_3d r in
    let! sol := np_solve ls variances residual in
    let! qf := np_matmul (swapaxes_last residual) sol in
    Err TypeError
  else
    let! r := bop Rminus predictions targets in
    let! q := bop Rdiv (ndmap (fun x => x ^ 2) r) variances in
    bop Rplus q (ndmap ln variances).
Definition jx_lool_unscaled (ls : lsolver) (predictions targets variances : nd R) : result R :=
  let! t := bk_lool_terms ls predictions targets variances in Ok (nd_sum t).
Definition to_lool_unscaled (ls : lsolver) (predictions targets variances : nd R) : result (nd R) :=
  let! t := bk_lool_terms ls predictions targets variances in Ok (to_sum t).
(** loss/jax.py:67-75, loss/torch.py:38-45 [_lool_fn]. *)
Definition jx_lool (ls : lsolver) (predictions targets variances : nd R) (scale : R) : result R :=
  jx_lool_unscaled ls predictions targets (ndmap (Rmult scale) variances).
Definition to_lool (ls : lsolver) (predictions targets variances : nd R) (scale : R) : result (nd R) :=
  to_lool_unscaled ls predictions targets (ndmap (Rmult scale) variances).

(** loss/torch.py:68-77 [_pseudo_huber_fn]. *)
Definition to_pseudo_huber (predictions targets : nd R) (boundary_scale : R) : result (nd R) :=
  let! r := bop Rminus targets predictions in
  Ok (ndmap (Rmult (boundary_scale ^ 2)) (to_sum (ndmap (fun x => sqrt (1 + (x / boundary_scale) ^ 2) - 1) r))).
(** loss/torch.py:83-118 [_looph_fn_unscaled], [_looph_fn]: no check of the number of axes. *)
Definition to_looph_unscaled (predictions targets variances : nd R) (boundary_scale : R) : result (nd R) :=
  let bsq := boundary_scale ^ 2 in
  let! r := bop Rminus targets predictions in
  let! q := bop Rdiv (ndmap (fun x => x ^ 2) r) (ndmap (Rmult bsq) variances) in
  let! t := bop Rplus (ndmap (fun x => 2 * bsq * (sqrt (1 + x) - 1)) q) (ndmap ln variances) in
  Ok (to_sum t).
Definition to_looph (predictions targets variances : nd R) (scale boundary_scale : R) : result (nd R) :=
  to_looph_unscaled predictions targets (ndmap (Rmult scale) variances) boundary_scale.
(** loss/jax.py:48-64 and 100-146 are numpy's text ([mse_fn], [pseudo_huber_fn], [looph_fn]); noise/{jax,torch}.py are numpy's text for the scalar noise models and,
    for arrays of matching sizes, for the heteroscedastic one. *)

(** ** Optimizers *)
Inductive backend := Numpy | Jax | Torch.
Inductive optimizer := Scipy | Bayes.
(** optimize/chassis/jax.py re-exports numpy's, torch.py raises. *)
Definition optimizer_available (b : backend) (o : optimizer) : result unit :=
  match b with Torch => Err NotImplementedError | _ => Ok tt end.
