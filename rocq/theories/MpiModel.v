(** Model of the MPI layer: /repo/src/MuyGPyS/_src/mpi_utils.py and the mpi implementations
    (_src/gp/tensors/mpi.py, _src/optimize/loss/mpi.py, _src/optimize/scale/mpi.py).
    A rank runs a sequential program that can send to and receive from other ranks; the
    network semantics is in MpiSem.v.  allgather and allreduce are collectives of the MPI
    library: every rank gets the list, or the sum, of all ranks' values. *)
From Flocq Require Import Core.
From Verif Require Import Base NdModel RSum LinAlgModel GPModel TensorModel LossModel.
Local Open Scope R_scope.

(** ** Programs of one rank *)
Inductive proc (V A : Type) :=
| Ret (a : A)
| Raise (e : err)
| Send (v : V) (dst : nat) (k : proc V A)
| Recv (src : nat) (k : V -> proc V A).
Arguments Ret {V A} a.
Arguments Raise {V A} e.
Arguments Send {V A} v dst k.
Arguments Recv {V A} src k.

Fixpoint pbind {V A B} (p : proc V A) (f : A -> proc V B) : proc V B :=
  match p with
  | Ret a => f a
  | Raise e => Raise e
  | Send v d k => Send v d (pbind k f)
  | Recv s k => Recv s (fun v => pbind (k v) f)
  end.

(** A computation without communication. *)
Definition lift {V A} (r : result A) : proc V A :=
  match r with Ok a => Ret a | Err e => Raise e end.

(** ** Splitting an array among the ranks *)

(** Python's [int(count / size)]: the quotient is rounded to double precision, then truncated
    (the quotient is not negative).  The exponent range of doubles is not modelled. *)
Definition int_true_div (count size : nat) : Z :=
  Zfloor (round radix2 (FLX_exp 53) ZnearestE (INR count / INR size)).

(** [_get_chunk_sizes] (mpi_utils.py:36-41). *)
Definition get_chunk_sizes (count size : nat) : list Z :=
  let floor := int_true_div count size in
  let remainder := (Z.of_nat count - floor * Z.of_nat size)%Z in
  map (fun i => if (Z.of_nat size - remainder <=? Z.of_nat i)%Z then (floor + 1)%Z else floor)
      (seq 0 size).

(** arg[start : start + n] along the first axis, clipped to the array. *)
Definition slice0 (t : nd R) (start n : nat) : nd R :=
  match shape t with
  | [] => t
  | b :: rest => mkNd ((Nat.min (start + n) b - Nat.min start b)%nat :: rest)
      (fun idx => match idx with
                  | i :: l => at_ t ((Nat.min start b + i)%nat :: l)
                  | [] => at_ t []
                  end)
  end.

Definition zsum (l : list Z) : Z := fold_right Z.add 0%Z l.

(** [_prepare_parallel_data] (mpi_utils.py:44-53) for one argument: one slice per rank. *)
Definition prepare (size : nat) (sizes : list Z) (arg : nd R) : list (nd R) :=
  map (fun i => slice0 arg (Z.to_nat (zsum (firstn i sizes))) (Z.to_nat (nth i sizes 0%Z)))
      (seq 0 size).

(** np.vstack / np.concatenate of the gathered chunks in rank order
    (mpi_utils.py:131-135 [_consistent_unchunk_tensor]). *)
Fixpoint gather_at (chunks : list (nd R)) (i : nat) (l : list nat) : R :=
  match chunks with
  | [] => 0
  | c :: cs => let b := hd 0%nat (shape c) in
      if (i <? b)%nat then at_ c (i :: l) else gather_at cs (i - b) l
  end.
Definition gather (chunks : list (nd R)) : nd R :=
  mkNd (fold_right Nat.add 0%nat (map (fun c => hd 0%nat (shape c)) chunks) ::
        match chunks with [] => [] | c :: _ => tl (shape c) end)
       (fun idx => match idx with i :: l => gather_at chunks i l | [] => 0 end).

(** ** Scatter *)

(** The root's loop of [_big_scatter] (mpi_utils.py:56-71). *)
Fixpoint scatter_loop {V} (i : nat) (chunks : list V) (my_chunk : option V) : proc V V :=
  match chunks with
  | [] => match my_chunk with Some c => Ret c | None => Raise UnboundLocalError end
  | c :: cs => if (i =? 0)%nat then scatter_loop (S i) cs (Some c)
               else Send c i (scatter_loop (S i) cs my_chunk)
  end.

(** [_big_scatter] (mpi_utils.py:56-71); size == 0 does not occur. *)
Definition big_scatter {V} (rank : nat) (chunks : list V) : proc V V :=
  if (rank =? 0)%nat then scatter_loop 0 chunks None else Recv 0 Ret.

Fixpoint scatter_all {V} (rank : nat) (l : list (list V)) : proc V (list V) :=
  match l with
  | [] => Ret []
  | chunks :: l' => pbind (big_scatter rank chunks) (fun c =>
                    pbind (scatter_all rank l') (fun cs => Ret (c :: cs)))
  end.

(** [_chunk_tensor] (mpi_utils.py:74-88).  The tensors are given and returned as a list, also for
    return_count = 1. *)
Definition chunk_tensor (size rank : nat) (tensors : list (nd R)) (return_count : nat)
  : proc (nd R) (list (nd R)) :=
  if (rank =? 0)%nat then
    match tensors with
    | [] => Raise IndexError
    | t0 :: _ =>
        match shape t0 with
        | [] => Raise IndexError
        | data_count :: _ =>
            let sizes := get_chunk_sizes data_count size in
            scatter_all rank (map (prepare size sizes) tensors)
        end
    end
  else scatter_all rank (repeat [] return_count).

(** [_chunk_function_tensor] (mpi_utils.py:91-96): only rank 0 evaluates the function. *)
Definition chunk_function_tensor (size rank : nat) (func : proc (nd R) (list (nd R)))
  (return_count : nat) : proc (nd R) (list (nd R)) :=
  if (rank =? 0)%nat then pbind func (fun ts => chunk_tensor size rank ts return_count)
  else chunk_tensor size rank [] return_count.

(** The [mpi_chunk] decorator (mpi_utils.py:99-115) with the mpi backend selected. *)
Definition mpi_chunk (size rank : nat) (return_count : nat) (func : proc (nd R) (list (nd R)))
  (disable_mpi : bool) : proc (nd R) (list (nd R)) :=
  if disable_mpi then func else chunk_function_tensor size rank func return_count.

(** ** Tensors *)

Definition single {A} (r : result A) : result (list A) := let! a := r in Ok [a].

(** _src/gp/tensors/mpi.py:23-86. *)
Definition heteroscedastic_mpi size rank (noise : nd R) (nn : nd Z) :=
  chunk_function_tensor size rank (lift (single (make_heteroscedastic_tensor noise nn))) 1.
Definition batch_features_mpi size rank (features : nd R) (ix : nd Z) :=
  chunk_function_tensor size rank (lift (single (batch_features_tensor features ix))) 1.
Definition crosswise_mpi size rank (data nn_data : nd R) (ix nn : nd Z) :=
  chunk_function_tensor size rank (lift (single (crosswise_tensor data nn_data ix nn))) 1.
Definition pairwise_mpi size rank (data : nd R) (nn : nd Z) :=
  chunk_function_tensor size rank (lift (single (pairwise_tensor data nn))) 1.

(** Which difference functions a MetricFn was built with: the numpy ones (as in
    tests/backend/mpi_correctness.py:108-121) or those of the selected backend, here mpi, as the
    library's own [l2] and [F2] (gp/deformation/metric.py:19, 237-242, 260-265). *)
Inductive diff_fns := NumpyDiffs | BackendDiffs.

Definition metric_crosswise_diffs (f : diff_fns) size rank data nn_data ix nn :=
  match f with
  | NumpyDiffs => lift (single (crosswise_tensor data nn_data ix nn))
  | BackendDiffs => crosswise_mpi size rank data nn_data ix nn
  end.
Definition metric_pairwise_diffs (f : diff_fns) size rank data nn :=
  match f with
  | NumpyDiffs => lift (single (pairwise_tensor data nn))
  | BackendDiffs => pairwise_mpi size rank data nn
  end.

Definition head_of (l : list (nd R)) : nd R := match l with t :: _ => t | [] => mkNd [] (fun _ => 0) end.

(** [Isotropy.crosswise_tensor] / [pairwise_tensor] (gp/deformation/isotropy.py:91-161)
    and [Anisotropy]'s (anisotropy.py:72-143): the decorated method turns the metric's differences
    into distances ([post] is the metric function, isotropy) or returns them (anisotropy). *)
Definition iso_post (m : metric) : nd R -> result (nd R) := metric_call m.
Definition aniso_post : nd R -> result (nd R) := fun d => Ok d.
Definition def_crosswise (post : nd R -> result (nd R)) (f : diff_fns) size rank data nn_data ix nn
  (disable_mpi : bool) :=
  mpi_chunk size rank 1
    (pbind (metric_crosswise_diffs f size rank data nn_data ix nn) (fun ds =>
     lift (single (post (head_of ds))))) disable_mpi.
Definition def_pairwise (post : nd R -> result (nd R)) (f : diff_fns) size rank data nn
  (disable_mpi : bool) :=
  mpi_chunk size rank 1
    (pbind (metric_pairwise_diffs f size rank data nn) (fun ds =>
     lift (single (post (head_of ds))))) disable_mpi.

(** [MuyGPS.make_predict_tensors] (gp/muygps.py:405-475). *)
Definition make_predict_tensors_mpi (post : nd R -> result (nd R)) (f : diff_fns) size rank
  (ix nn : nd Z) (test_features train_features train_targets : nd R) :=
  mpi_chunk size rank 3
    (pbind (def_crosswise post f size rank test_features train_features ix nn true) (fun c =>
     pbind (def_pairwise post f size rank train_features nn true) (fun p =>
     pbind (lift (take train_targets nn)) (fun t =>
     Ret [head_of c; head_of p; t])))) false.

(** [MuyGPS.make_train_tensors] (gp/muygps.py:477-551). *)
Definition make_train_tensors_mpi (post : nd R -> result (nd R)) (f : diff_fns) size rank
  (ix nn : nd Z) (train_features train_targets : nd R) :=
  mpi_chunk size rank 4
    (pbind (def_crosswise post f size rank train_features train_features ix nn true) (fun c =>
     pbind (def_pairwise post f size rank train_features nn true) (fun p =>
     pbind (lift (take train_targets nn)) (fun nt =>
     pbind (lift (take train_targets ix)) (fun t =>
     Ret [head_of c; head_of p; t; nt]))))) false.

(** The serial functions (the same code with any other backend, where mpi_chunk is the
    identity). *)
Definition make_predict_tensors (post : nd R -> result (nd R)) (ix nn : nd Z)
  (test_features train_features train_targets : nd R) : result (list (nd R)) :=
  let! cd := crosswise_tensor test_features train_features ix nn in
  let! c := post cd in
  let! pd := pairwise_tensor train_features nn in
  let! p := post pd in
  let! t := take train_targets nn in
  Ok [c; p; t].
Definition make_train_tensors (post : nd R -> result (nd R)) (ix nn : nd Z)
  (train_features train_targets : nd R) : result (list (nd R)) :=
  let! cd := crosswise_tensor train_features train_features ix nn in
  let! c := post cd in
  let! pd := pairwise_tensor train_features nn in
  let! p := post pd in
  let! nt := take train_targets nn in
  let! t := take train_targets ix in
  Ok [c; p; t; nt].

(** ** Reductions: the arguments list every rank's local arrays *)

(** world.allreduce(local, op=MPI.SUM) after each rank computed its local value; an exception
    on any rank prevents completion. *)
Definition allreduce (locals : list (result R)) : result R :=
  let! l := sequence locals in Ok (lsum l).

(** loss/mpi.py:21-25 [_mse_fn]. *)
Definition mse_mpi (ranks : list (nd R * nd R)) : result R :=
  let! n := allreduce (map (fun a => Ok (INR (nprod (shape (fst a))))) ranks) in
  let! s := allreduce (map (fun a => mse_unnormalized (fst a) (snd a)) ranks) in
  Ok (s / n).
(** loss/mpi.py:37-44 [_cross_entropy_fn]. *)
Definition cross_entropy_mpi (eps : R) (ranks : list (nd R * nd R)) : result R :=
  allreduce (map (fun a => cross_entropy_fn eps (fst a) (snd a)) ranks).
(** loss/mpi.py:74-84 [_pseudo_huber_fn]. *)
Definition pseudo_huber_mpi (boundary_scale : R) (ranks : list (nd R * nd R)) : result R :=
  allreduce (map (fun a => pseudo_huber_fn (fst a) (snd a) boundary_scale) ranks).

Section V.
Variable ls : lsolver.
Variable slogdet : nat -> mat -> R * R.
(** loss/mpi.py:47-58 [_lool_fn]. *)
Definition lool_mpi (scale : R) (ranks : list (nd R * nd R * nd R)) : result R :=
  allreduce (map (fun a => lool_fn ls slogdet (fst (fst a)) (snd (fst a)) (snd a) scale) ranks).
(** loss/mpi.py:61-71 [_lool_fn_unscaled]: calls itself on the same arguments before anything
    else, so every call ends with Python's recursion limit. *)
Definition lool_unscaled_mpi (ranks : list (nd R * nd R * nd R)) : result R :=
  allreduce (map (fun _ => Err RecursionError) ranks).
(** loss/mpi.py:87-104 [_looph_fn]. *)
Definition looph_mpi (scale boundary_scale : R) (ranks : list (nd R * nd R * nd R)) : result R :=
  allreduce (map (fun a => looph_fn (fst (fst a)) (snd (fst a)) (snd a) scale boundary_scale) ranks).

(** scale/mpi.py:19-37 [_analytic_scale_optim]; every rank computes the same quotient with its
    own in_size, the one of rank 0 is returned here (all in_size agree). *)
Definition analytic_scale_mpi (ranks : list (nd R * nd R)) : result R :=
  let local a :=
    let Kin := fst a in
    let in_dim_count := ((ndim Kin - 1) / 2)%nat in
    let in_size := nprod (skipn (1 + in_dim_count) (shape Kin)) in
    let batch_shape := firstn 1 (shape Kin) in
    let! K := reshape Kin (batch_shape ++ [in_size; in_size]) in
    let! T := reshape (snd a) (batch_shape ++ [in_size; 1%nat]) in
    analytic_scale_unnormalized ls K T in
  let in_size := match ranks with
    | a :: _ => nprod (skipn (1 + (ndim (fst a) - 1) / 2) (shape (fst a)))
    | [] => 0%nat end in
  let! s := allreduce (map local ranks) in
  let! n := allreduce (map (fun a => Ok (INR (nprod (firstn 1 (shape (fst a)))))) ranks) in
  Ok (s / (INR in_size * n)).
End V.
