(** Property theorems C108: data drawn by the dense reference GP have the covariance of the model. *)
From Coq Require Import Lia Lra.
From Verif Require Import Base BaseFacts NdModel NdFacts RSum HyperModel NamedModel NamedSpec LinAlgModel LinAlgSpec LinAlgFacts Gauss
  NoiseModel GPSpec TensorModel TensorSpec KernelModel KernelSpec FlowSpec PointwiseSpec LibSpec WorkSpec WorkProps
  BestSpec CalibSpec BenchModel BenchSpec BenchChol BenchProofs.
Local Open Scope R_scope.

(** * C108 *)
(** benchmark_prepare_cholK returns the Cholesky factor of scale * (kernel matrix + noise * identity) of all rows. *)
Theorem C108_factor : forall gamma kv ch K cur m sc data n, exact_cholesky ch -> lk_ok K (feature_count data) cur [] -> dataset data n ->
  uniform_noise m -> 0 < sc -> sound_prior (noise_val m) data n ->
  exists L, benchmark_prepare_cholK gamma kv ch (mkBench K cur m sc) data = Ok L /\ shape L = [n; n] /\
    cholesky_factor n (prior_cov (lk_cov gamma kv K (feature_count data) cur []) (noise_val m) sc data) (fun i j => at_ L [i; j]).
Proof. exact factor. Qed.
Print Assumptions C108_factor.

(** Without noise a repeated row is an error, whatever the kernel and the scale. *)
Theorem C108_repeated_row : forall gamma kv ch K cur m sc data n a b, exact_cholesky ch -> lk_ok K (feature_count data) cur [] -> dataset data n ->
  uniform_noise m -> noise_val m = 0 -> (a < b)%nat -> (b < n)%nat ->
  (forall f, (f < feature_count data)%nat -> feature data a f = feature data b f) ->
  benchmark_prepare_cholK gamma kv ch (mkBench K cur m sc) data = Err LinAlgError.
Proof. exact singular. Qed.
Print Assumptions C108_repeated_row.

(** Fed with uncorrelated draws of mean square one, benchmark_sample returns one response per row, with the covariance of the prior. *)
Theorem C108_sample : forall gamma kv ch K cur m sc data n outcomes pi z, exact_cholesky ch -> lk_ok K (feature_count data) cur [] -> dataset data n ->
  uniform_noise m -> 0 < sc -> sound_prior (noise_val m) data n -> white outcomes pi n z ->
  exists y, (forall o, benchmark_sample gamma kv ch (mkBench K cur m sc) data (z o) = Ok (y o) /\ shape (y o) = (if (n =? 1)%nat then [] else [n])) /\
    forall i j, (i < n)%nat -> (j < n)%nat ->
      expect outcomes pi (fun o => response n (y o) i * response n (y o) j) =
      prior_cov (lk_cov gamma kv K (feature_count data) cur []) (noise_val m) sc data i j.
Proof. exact sample_moments. Qed.
Print Assumptions C108_sample.

(** benchmark_sample_full: the first M responses belong to the test rows, the others to the training rows. *)
Theorem C108_sample_full : forall gamma kv ch K cur m sc test train M N outcomes pi z, exact_cholesky ch -> lk_ok K (feature_count train) cur [] ->
  dataset test M -> dataset train N -> ndim test = ndim train -> feature_count test = feature_count train ->
  uniform_noise m -> 0 < sc -> 0 < noise_val m \/ (0 <= noise_val m /\ distinct_points test train M N) -> white outcomes pi (M + N) z ->
  exists y, (forall o, benchmark_sample_full gamma kv ch (mkBench K cur m sc) test train (z o) = Ok (y o) /\
               shape (y o) = (if (M + N =? 1)%nat then [] else [(M + N)%nat])) /\
    let k := lk_cov gamma kv K (feature_count train) cur [] in
    let r := fun i o => response (M + N) (y o) i in
    (forall x x', (x < M)%nat -> (x' < M)%nat ->
       expect outcomes pi (fun o => r x o * r x' o) = sc * (kcov k test test x x' + if (x =? x')%nat then noise_val m else 0)) /\
    (forall x a, (x < M)%nat -> (a < N)%nat -> expect outcomes pi (fun o => r x o * r (M + a)%nat o) = sc * kcov k test train x a) /\
    (forall a c, (a < N)%nat -> (c < N)%nat ->
       expect outcomes pi (fun o => r (M + a)%nat o * r (M + c)%nat o) = sc * (kcov k train train a c + if (a =? c)%nat then noise_val m else 0)).
Proof. exact full_moments. Qed.
Print Assumptions C108_sample_full.

(** Noise-free samples meet the hypotheses of C107: a model fitted to them has unbiased scale and calibrated variances. *)
Theorem C108_study : forall gamma kv ch K cur m sc test train M N outcomes pi z, exact_cholesky ch -> lk_ok K (feature_count train) cur [] ->
  dataset test M -> dataset train N -> ndim test = ndim train -> feature_count test = feature_count train ->
  uniform_noise m -> noise_val m = 0 -> 0 < sc -> distinct_points test train M N -> white outcomes pi (M + N) z ->
  exists y, (forall o, benchmark_sample_full gamma kv ch (mkBench K cur m sc) test train (z o) = Ok (y o)) /\
    data_moments outcomes pi (fun x o => response (M + N) (y o) x) (fun a o => response (M + N) (y o) (M + a))
      (lk_cov gamma kv K (feature_count train) cur []) m sc test train M N.
Proof. exact full_data_moments. Qed.
Print Assumptions C108_study.

(** A vector given together with a matrix is one row of features: one test point (or one training point), not a column of points. *)
Theorem C108_single_point : forall gamma kv ch gp t X f N z, shape t = [f] -> shape X = [N; f] ->
  let row := mkNd [1%nat; f] (fun idx => match idx with [_; j] => at_ t [j] | _ => at_ t (tl idx) end) in
  benchmark_sample_full gamma kv ch gp t X z = benchmark_sample_full gamma kv ch gp row X z /\
  benchmark_sample_full gamma kv ch gp X t z = benchmark_sample_full gamma kv ch gp X row z /\
  forall Y g, shape Y = [N; g] -> g <> f ->
    benchmark_sample_full gamma kv ch gp t Y z = Err ValueError /\ benchmark_sample_full gamma kv ch gp Y t z = Err ValueError.
Proof.
  intros gamma kv ch gp t X f N z T X2. cbv zeta.
  assert (A : forall Z, shape Z = [N; f] -> atleast_2d Z = Z) by (intros Z E; unfold atleast_2d; rewrite E; reflexivity).
  unfold benchmark_sample_full, ndim. rewrite T, X2. cbn [shape List.length Nat.eqb andb]. rewrite (A X X2).
  unfold atleast_2d. cbn [shape]. rewrite T.
  assert (E : forall a b : list nat -> R, (forall i, a i = b i) -> a = b) by (intros; apply FunctionalExtensionality.functional_extensionality; assumption).
  assert (R1 : (fun idx : list nat => at_ t (tl idx)) = (fun idx : list nat => match idx with [_; j] => at_ t [j] | _ => at_ t (tl idx) end)).
  { apply E. intros [|i [|j [|k r]]]; reflexivity. }
  rewrite R1. split; [reflexivity|]. split; [reflexivity|].
  intros Y g SY NE. rewrite SY. cbn [List.length Nat.eqb andb]. unfold concat_rows. cbn [shape]. rewrite SY. cbn [list_eqb].
  rewrite (proj2 (Nat.eqb_neq f g)), (proj2 (Nat.eqb_neq g f)) by congruence. split; reflexivity.
Qed.
Print Assumptions C108_single_point.

(** get_analytic_scale is y^T Kin^-1 y / n. *)
Theorem C108_analytic_scale : forall ls, exact_solver ls -> forall Kin y n, (0 < n)%nat -> shape Kin = [n; n] ->
  shape y = [n] \/ shape y = [n; 1%nat] -> nonsingular n (fun i j => at_ Kin [i; j]) ->
  exists s c, get_analytic_scale ls Kin y = Ok s /\ shape s = [] /\
    solves n (fun i j => at_ Kin [i; j]) c (column y) /\ at_ s [] = dot n (column y) c / INR n.
Proof. exact analytic_ok. Qed.
Print Assumptions C108_analytic_scale.

(** ... and is unbiased on responses with covariance sc * Kin. *)
Theorem C108_analytic_scale_unbiased : forall ls, exact_solver ls -> forall Kin y n outcomes pi sc, (0 < n)%nat -> shape Kin = [n; n] ->
  (forall o, (o < outcomes)%nat -> shape (y o) = [n] \/ shape (y o) = [n; 1%nat]) -> nonsingular n (fun i j => at_ Kin [i; j]) ->
  (forall i j, (i < n)%nat -> (j < n)%nat -> expect outcomes pi (fun o => column (y o) i * column (y o) j) = sc * at_ Kin [i; j]) ->
  exists h, (forall o, (o < outcomes)%nat -> exists s, get_analytic_scale ls Kin (y o) = Ok s /\ shape s = [] /\ at_ s [] = h o) /\
    expect outcomes pi h = sc.
Proof. exact analytic_unbiased. Qed.
Print Assumptions C108_analytic_scale_unbiased.

(** Exact Cholesky routines and white draws exist. *)
Theorem C108_cholesky_exists : exact_cholesky chol.
Proof. exact chol_exact. Qed.
Print Assumptions C108_cholesky_exists.
Theorem C108_draws_exist : forall n, exists outcomes pi z, white outcomes pi n z.
Proof. exact white_exists. Qed.
Print Assumptions C108_draws_exist.

(** Two points one length scale apart: the hypotheses hold and the factor is the expected one. *)
Definition ex108_data : nd R := mkNd [2%nat] (fun idx => match idx with [1%nat] => 1 | _ => 0 end).
Example C108_sat : forall gamma kv,
  lk_ok ex80_K (feature_count ex108_data) (fun _ => 1) [] /\ dataset ex108_data 2 /\ sound_prior (noise_val NullNoise) ex108_data 2 /\
  exists L, benchmark_prepare_cholK gamma kv chol (mkBench ex80_K (fun _ => 1) NullNoise 4) ex108_data = Ok L /\
    at_ L [0; 0]%nat = 2 /\ at_ L [0; 1]%nat = 0 /\ at_ L [1; 0]%nat = 2 * exp (- (1 / 2)).
Proof.
  intros gamma kv.
  assert (OK : lk_ok ex80_K (feature_count ex108_data) (fun _ => 1) []).
  { destruct C80_sat as (knn & dist & w & w' & H). decompose [and] H. assumption. }
  assert (D : dataset ex108_data 2) by (left; reflexivity).
  assert (SP : sound_prior (noise_val NullNoise) ex108_data 2).
  { right. split; [cbn; lra|]. intros i j Hi Hj NE. exists O. split; [cbn; lia|].
    destruct i as [|[|i]], j as [|[|j]]; try lia; cbn; lra. }
  split; [exact OK|]. split; [exact D|]. split; [exact SP|].
  destruct (factor gamma kv chol ex80_K (fun _ => 1) NullNoise 4 ex108_data 2 chol_exact OK D (or_introl eq_refl) ltac:(lra) SP) as (L & E & SL & T & DG & G).
  exists L. split; [exact E|].
  assert (K0 : kcov (lk_cov gamma kv ex80_K (feature_count ex108_data) (fun _ => 1) []) ex108_data ex108_data 0 0 = 1) by apply (LibProofs.lk_cov_0 gamma kv ex80_K _ _ [] (feature ex108_data) 0 OK).
  assert (K1 : kcov (lk_cov gamma kv ex80_K (feature_count ex108_data) (fun _ => 1) []) ex108_data ex108_data 1 0 = exp (- (1 / 2))).
  { unfold kcov. lazy -[IZR Rdiv exp Ropp Rplus Rmult Rinv Rminus sqrt Rpower ln pow]. f_equal. field. }
  pose proof (G 0%nat 0%nat ltac:(lia) ltac:(lia)) as G00. pose proof (G 1%nat 0%nat ltac:(lia) ltac:(lia)) as G10.
  unfold prior_cov in G00, G10. rewrite K0 in G00. rewrite K1 in G10. cbn [rsum Nat.eqb noise_val noise_at] in G00, G10.
  pose proof (T 0%nat 1%nat ltac:(lia) ltac:(lia) ltac:(lia)) as T01. pose proof (DG 0%nat ltac:(lia)) as D0. cbn beta in *. rewrite T01 in *.
  unfold noise_val in *. cbn [noise_at] in *.
  assert (A : at_ L [0; 0]%nat = 2) by nra. rewrite A in *. split; [reflexivity|]. split; [reflexivity|]. lra.
Qed.
