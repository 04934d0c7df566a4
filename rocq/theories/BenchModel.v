(** Model of the dense reference GP of the test suite (/repo/src/MuyGPyS/_test/gp.py), which the tutorials and the shipped simulation
    helpers use to draw data from a prior. *)
From Verif Require Import Base NdModel RSum HyperModel NamedModel LinAlgModel NoiseModel TensorModel KernelModel LibSpec.
Local Open Scope R_scope.

(** A lower-triangular factorisation routine (LAPACK potrf behind np.linalg.cholesky): [None] for "not positive definite". *)
Definition cholesky_fn := nat -> mat -> option mat.

(** np.linalg.cholesky: the two trailing axes must be equal; LinAlgError otherwise or when one matrix is not positive definite. *)
Definition np_cholesky (ch : cholesky_fn) (A : nd R) : result (nd R) :=
  match rev (shape A) with
  | m :: n :: rA =>
    if (n =? m)%nat then
      let bs := rev rA in
      if forallb (fun q => is_some (ch n (slice2 A (unravel bs q)))) (seq 0 (nprod bs))
      then Ok (mkNd (shape A) (fun idx =>
             match rev idx with
             | j :: i :: rx => match ch n (slice2 A (rev rx)) with Some L => L i j | None => 0 end
             | _ => 0
             end))
      else Err LinAlgError
    else Err LinAlgError
  | _ => Err LinAlgError
  end.

(** [BenchmarkGP] (gp.py:12-36): a kernel, a noise model and a scale (FixedScale() is 1 until somebody sets it). *)
Record bench_gp := mkBench { bg_kernel : libkernel; bg_cur : nat -> R; bg_noise : noise_model; bg_scale : R }.

(** BenchmarkGP(kernel, noise) (gp.py:25-36, gp/hyperparameter/scale.py:36-38). *)
Definition benchmark_gp (K : libkernel) (cur : nat -> R) (m : noise_model) : bench_gp := mkBench K cur m 1.

(** gp.noise(): the value of the parameter object (gp/hyperparameter/scalar.py:269-276, gp/hyperparameter/tensor.py:99-106, gp/noise/null.py:29-30). *)
Definition noise_call (m : noise_model) : nd R :=
  match m with
  | HomoscedasticNoise v | ShearNoise33 v => mkNd [] (fun _ => v)
  | HeteroscedasticNoise t => t
  | NullNoise => mkNd [] (fun _ => 0)
  end.

(** np.arange(n). *)
Definition arange (n : nat) : nd Z := mkNd [n] (fun idx => match idx with [i] => Z.of_nat i | _ => 0%Z end).

Section Bench.
Variables (gamma : R -> R) (kv : R -> R -> R).

(** gp.kernel(gp.kernel.deformation.pairwise_tensor(data, nn)) (gp.py:101-106). *)
Definition bench_kernel (K : libkernel) (cur : nat -> R) (data : nd R) (nn : nd Z) : result (nd R) :=
  let! dists := deform_pairwise (lk_def K) data nn in
  match K with
  | LRbf d => rbf_call d cur dists []
  | LMatern d sm p => matern_call gamma kv d sm (set_matern_fn p) cur dists []
  end.

(** [benchmark_prepare_cholK] (gp.py:83-107). *)
Definition benchmark_prepare_cholK (ch : cholesky_fn) (gp : bench_gp) (data : nd R) : result (nd R) :=
  match shape data with
  | [] => Err IndexError
  | data_count :: _ =>
    let! K := bench_kernel (bg_kernel gp) (bg_cur gp) data (arange data_count) in
    let! nugget := bop Rmult (noise_call (bg_noise gp)) (eye data_count) in
    let! Kn := bop Rplus K nugget in
    np_cholesky ch (ndmap (Rmult (bg_scale gp)) Kn)
  end.

(** [benchmark_sample_from_cholK] (gp.py:128-132); [z] are the data_count standard normal draws. *)
Definition benchmark_sample_from_cholK (cholK : nd R) (z : nat -> R) : result (nd R) :=
  match shape cholK with
  | [data_count; m] =>
    if (m =? data_count)%nat
    then Ok (mkNd [data_count; 1%nat] (fun idx => match idx with
           | i :: _ => rsum data_count (fun k => at_ cholK [i; k] * z k)
           | [] => 0 end))
    else Err ValueError
  | _ => Err ValueError
  end.

(** [benchmark_sample] (gp.py:110-125). *)
Definition benchmark_sample (ch : cholesky_fn) (gp : bench_gp) (data : nd R) (z : nat -> R) : result (nd R) :=
  let! cholK := benchmark_prepare_cholK ch gp data in
  let! y := benchmark_sample_from_cholK cholK z in
  Ok (squeeze y).

(** np.hstack of two vectors / np.vstack of two arrays (gp.py:76-79): the rows of the first, then those of the second; vstack views a
    vector as one row and a scalar as one row of one column. *)
Definition atleast_2d (t : nd R) : nd R :=
  match shape t with
  | [] => mkNd [1; 1]%nat (fun _ => at_ t [])
  | [m] => mkNd [1; m]%nat (fun idx => at_ t (tl idx))
  | _ => t
  end.
Definition concat_rows (a b : nd R) : result (nd R) :=
  match shape a, shape b with
  | m :: ra, n :: rb =>
    if list_eqb ra rb
    then Ok (mkNd ((m + n)%nat :: ra) (fun idx => match idx with
           | i :: rest => if (i <? m)%nat then at_ a (i :: rest) else at_ b ((i - m)%nat :: rest)
           | [] => 0 end))
    else Err ValueError
  | _, _ => Err ValueError
  end.

(** [benchmark_sample_full] (gp.py:55-80). *)
Definition benchmark_sample_full (ch : cholesky_fn) (gp : bench_gp) (test train : nd R) (z : nat -> R) : result (nd R) :=
  let! thing := if (ndim test =? ndim train)%nat && (ndim train =? 1)%nat
                then concat_rows test train
                else concat_rows (atleast_2d test) (atleast_2d train) in
  benchmark_sample ch gp thing z.
End Bench.

(** [get_analytic_scale] (gp.py:135-137): the assertion, 1 / y.shape[0], then y.T @ solve(Kin, y), squeezed.
    Simplification: [y] has one or two axes. *)
Definition get_analytic_scale (ls : lsolver) (Kin y : nd R) : result (nd R) :=
  match shape y, shape Kin with
  | [], _ => Err IndexError
  | _, [] => Err IndexError
  | n :: _, n' :: _ =>
    if negb (n =? n')%nat then Err AssertionError
    else if (n =? 0)%nat then Err ZeroDivisionError
    else match shape y with
      | [_] =>
        let! X := np_solve ls Kin (newaxis 1 y) in
        Ok (mkNd [] (fun _ => 1 / INR n * rsum n (fun i => at_ y [i] * at_ X [i; 0%nat])))
      | [_; r] =>
        let! X := np_solve ls Kin y in
        let! P := np_matmul (swapaxes_last y) X in
        Ok (ndmap (Rmult (1 / INR n)) (squeeze P))
      | _ => Err ValueError
      end
  end.
