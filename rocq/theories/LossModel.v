(** Model of the numpy loss functions (/repo/src/MuyGPyS/_src/optimize/loss/numpy.py) and of
    their calling convention inside an objective (optimize/loss.py).  Real arithmetic; the nan of
    an empty mean (0/0) and the infinities of a zero variance are not represented, theorems about
    them carry positivity hypotheses. *)
From Verif Require Import Base NdModel RSum LinAlgModel GPModel.
Local Open Scope R_scope.
Local Open Scope string_scope.

(** np.sum over every entry. *)
Definition nd_sum (t : nd R) : R :=
  rsum (nprod (shape t)) (fun k => at_ t (unravel (shape t) k)).

(** [_mse_fn_unnormalized] (numpy.py:22-25). *)
Definition mse_unnormalized (predictions targets : nd R) : result R :=
  let! r := bop Rminus predictions targets in
  Ok (nd_sum (ndmap (fun x => x ^ 2) r)).

(** [_mse_fn] (numpy.py:28-31): divided by the number of predictions. *)
Definition mse_fn (predictions targets : nd R) : result R :=
  let! s := mse_unnormalized predictions targets in
  Ok (s / INR (nprod (shape predictions))).

(** [_pseudo_huber_fn] (numpy.py:64-72). *)
Definition pseudo_huber_fn (predictions targets : nd R) (boundary_scale : R) : result R :=
  let! r := bop Rminus targets predictions in
  Ok (boundary_scale ^ 2 *
      nd_sum (ndmap (fun x => sqrt (1 + (x / boundary_scale) ^ 2) - 1) r)).

(** [_looph_fn_unscaled] (numpy.py:75-100). *)
Definition looph_fn_unscaled (predictions targets variances : nd R) (boundary_scale : R)
  : result R :=
  let bsq := boundary_scale ^ 2 in
  match shape variances with
  | [_] =>
      let! r := bop Rminus targets predictions in
      let! q := bop Rdiv (ndmap (fun x => x ^ 2) r) (ndmap (Rmult bsq) variances) in
      let! t := bop Rplus (ndmap (fun x => 2 * bsq * (sqrt (1 + x) - 1)) q) (ndmap ln variances) in
      Ok (nd_sum t)
  | _ => Err ValueError
  end.

(** [_looph_fn] (numpy.py:103-117); [scale] is a float. *)
Definition looph_fn (predictions targets variances : nd R) (scale boundary_scale : R) : result R :=
  looph_fn_unscaled predictions targets (ndmap (Rmult scale) variances) boundary_scale.

Section Lool.
Variable ls : lsolver.
(** np.linalg.slogdet of one n-by-n matrix, an external routine: (sign, log |det|). *)
Variable slogdet : nat -> mat -> R * R.

(** np.linalg.slogdet of a (b, n, n) tensor: a pair of b-vectors, which the addition with an
    array converts to a (2, b) array (numpy.py:51-52). *)
Definition slogdet_array (V : nd R) : result (nd R) :=
  match shape V with
  | [b; n; n'] =>
      if negb (n =? n')%nat then Err LinAlgError
      else Ok (mkNd [2%nat; b] (fun idx =>
             match idx with
             | [O; x] => fst (slogdet n (slice2 V [x]))
             | [_; x] => snd (slogdet n (slice2 V [x]))
             | _ => 0
             end))
  | _ => Err LinAlgError
  end.

(** [_lool_fn_unscaled] (numpy.py:34-51).  Simplification: in the matrix branch only
    (b, n, n) variances are followed; other ranks raise (numpy would broadcast a (n, n) one). *)
Definition lool_fn_unscaled (predictions targets variances : nd R) : result R :=
  match shape variances with
  | [_] =>
      let! r := bop Rminus predictions targets in
      let! q := bop Rdiv (ndmap (fun x => x ^ 2) r) variances in
      let! t := bop Rplus q (ndmap ln variances) in
      Ok (nd_sum t)
  | _ =>
      let! r := bop Rminus predictions targets in
      let residual := atleast_3d r in
      let! sol := np_solve ls variances residual in
      let! qf := np_matmul (swapaxes_last residual) sol in
      let! ld := slogdet_array variances in
      let! t := bop Rplus (squeeze qf) ld in
      Ok (nd_sum t)
  end.

(** [_lool_fn] (numpy.py:54-61). *)
Definition lool_fn (predictions targets variances : nd R) (scale : R) : result R :=
  lool_fn_unscaled predictions targets (ndmap (Rmult scale) variances).
End Lool.

(** ** Cross entropy *)

(** scipy.special.softmax(x, axis=1) on a (b, k) array. *)
Definition softmax (t : nd R) : result (nd R) :=
  match shape t with
  | [b; k] => Ok (mkNd [b; k] (fun idx =>
      match idx with
      | [i; j] => exp (at_ t [i; j]) / rsum k (fun c => exp (at_ t [i; c]))
      | _ => 0 end))
  | _ => Err ValueError
  end.

(** sklearn.metrics.log_loss(y_true, y_pred, normalize=False) for a (b, k) 0/1 matrix: probabilities are
    clipped into [eps, 1 - eps], where eps depends on the sklearn version and dtype (versions before 1.5 divide
    each row by its sum afterwards, which changes nothing unless a probability was clipped); an empty batch, no
    column or mismatched shapes raise ValueError.  A single column is read as the binary labels of the
    rows: both labels must occur (ValueError otherwise), and y_pred is the probability of label 1. *)
Definition clip (eps x : R) : R := Rmin (Rmax x eps) (1 - eps).
Definition log_loss (eps : R) (y_true y_pred : nd R) : result R :=
  match shape y_pred with
  | [b; k] =>
      if (b =? 0)%nat || (k =? 0)%nat || negb (list_eqb (shape y_true) [b; k]) then Err ValueError
      else if (k =? 1)%nat then
        if forallb (fun i => Reqb (at_ y_true [i; O]) (at_ y_true [O; O])) (seq 0 b) then Err ValueError
        else Ok (- rsum b (fun i => at_ y_true [i; O] * ln (clip eps (at_ y_pred [i; O])) +
                   (1 - at_ y_true [i; O]) * ln (1 - clip eps (at_ y_pred [i; O]))))
      else Ok (- rsum b (fun i => rsum k (fun j =>
                 at_ y_true [i; j] * ln (clip eps (at_ y_pred [i; j])))))
  | _ => Err ValueError
  end.

(** [_cross_entropy_fn] (numpy.py:12-19). *)
Definition cross_entropy_fn (eps : R) (predictions targets : nd R) : result R :=
  let one_hot := ndmap (fun x => if Rltb 0 x then 1 else 0) targets in
  let! sm := softmax predictions in
  log_loss eps one_hot sm.

(** ** The exported loss objects and their calling convention *)

(** The loss functors of optimize/loss.py:216-396, in order of definition. *)
Inductive loss := CrossEntropy | Mse | Lool | LoolUnscaled | PseudoHuber | Looph.

(** Which wrapper each functor was constructed with: [make_raw_predict_and_loss_fn]
    (loss.py:26-96) or [make_var_predict_and_loss_fn] (loss.py:99-178). *)
Inductive wrapper := RawWrapper | VarWrapper.
Definition loss_wrapper (l : loss) : wrapper :=
  match l with
  | CrossEntropy | Mse | PseudoHuber => RawWrapper
  | Lool | LoolUnscaled | Looph => VarWrapper
  end.

(** Positional arguments of a Python call to a loss function. *)
Inductive arg := AArr (t : nd R) | ANum (r : R).

(** A call [fn( *args, **kw)] of each Python function with its declared parameters
    (numpy.py:12-118).  Excess positional arguments, missing ones, and a keyword that repeats a
    positional one raise TypeError; other keywords are absorbed by **kwargs, except that
    cross entropy forwards them to log_loss (TypeError here: log_loss's own optional keywords are
    not modelled).  Arguments of the wrong kind are not followed (TypeError). *)
Section Call.
Variable ls : lsolver.
Variable slogdet : nat -> mat -> R * R.
Variable eps : R.

Definition has_key (d : dict R) (k : string) : bool :=
  match dget d k with Some _ => true | None => false end.
Definition clash (d : dict R) (names : list string) : bool := existsb (has_key d) names.

Definition loss_call (l : loss) (args : list arg) (kw : dict R) : result R :=
  match l, args with
  | CrossEntropy, [AArr p; AArr t] =>
      match kw with [] => cross_entropy_fn eps p t | _ => Err TypeError end
  | Mse, [AArr p; AArr t] =>
      if clash kw ["predictions"; "targets"] then Err TypeError else mse_fn p t
  | PseudoHuber, [AArr p; AArr t] =>
      if clash kw ["predictions"; "targets"] then Err TypeError
      else pseudo_huber_fn p t (match dget kw "boundary_scale" with Some d => d | None => 3/2 end)
  | Lool, [AArr p; AArr t; AArr v; ANum s] =>
      if clash kw ["predictions"; "targets"; "variances"; "scale"] then Err TypeError
      else lool_fn ls slogdet p t v s
  | LoolUnscaled, [AArr p; AArr t; AArr v] =>
      if clash kw ["predictions"; "targets"; "variances"] then Err TypeError
      else lool_fn_unscaled ls slogdet p t v
  | Looph, [AArr p; AArr t; AArr v; ANum s] =>
      if clash kw ["predictions"; "targets"; "variances"; "scale"] then Err TypeError
      else looph_fn p t v s (match dget kw "boundary_scale" with Some d => d | None => 3 end)
  | _, _ => Err TypeError
  end.

(** t[:, mask] and t[:, mask, mask] (loss.py:91-92, 168-170). *)
Definition mask_cols (t : nd R) (mask : list nat) : result (nd R) :=
  match shape t with
  | b :: c :: r => if forallb (fun j => (j <? c)%nat) mask
                   then Ok (mkNd (b :: List.length mask :: r) (fun idx =>
                     match idx with x :: i :: l => at_ t (x :: nth i mask O :: l) | _ => 0 end))
                   else Err IndexError
  | _ => Err IndexError
  end.
(** Two equal index arrays are paired by numpy's advanced indexing: entry (x, i) of the result is
    entry (x, mask i, mask i). *)
Definition mask_diag (t : nd R) (mask : list nat) : result (nd R) :=
  match shape t with
  | b :: c :: d :: r =>
      if forallb (fun j => (j <? c)%nat && (j <? d)%nat) mask
      then Ok (mkNd (b :: List.length mask :: r) (fun idx =>
             match idx with x :: i :: l => at_ t (x :: nth i mask O :: nth i mask O :: l) | _ => 0 end))
      else Err IndexError
  | _ => Err IndexError
  end.

(** The [predict_and_loss_fn] closure built by a loss functor (loss.py:80-95, 150-176); the
    model's mean, variance and scale functions are given as calls already applied to the kernel
    tensors. *)
Definition predict_and_loss (l : loss) (mean : result (nd R)) (variance : result (nd R))
  (scale : result R) (batch_targets : nd R) (mask : option (list nat)) (kw : dict R) : result R :=
  match loss_wrapper l with
  | RawWrapper =>
      let! p := mean in
      let! p' := match mask with None => Ok p | Some m => mask_cols p m end in
      let! v := loss_call l [AArr p'; AArr batch_targets] kw in Ok (- v)
  | VarWrapper =>
      let! p := mean in
      let! s := scale in
      let! v := variance in
      let! p' := match mask with None => Ok p | Some m => mask_cols p m end in
      let! v' := match mask with None => Ok v | Some m => mask_diag v m end in
      let! r := loss_call l [AArr p'; AArr batch_targets; AArr v'; ANum s] kw in Ok (- r)
  end.
End Call.
