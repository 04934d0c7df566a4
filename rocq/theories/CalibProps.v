(** Property theorems C107: the analytic scale estimate is unbiased and the calibrated variances are right on average. *)
From Coq Require Import Lia Lra.
From Verif Require Import Base BaseFacts NdModel NdFacts RSum HyperModel NamedModel NamedSpec LinAlgModel LinAlgSpec LinAlgFacts Gauss
  GPModel NoiseModel MuyGPSModel GPSpec GPTheorems WellPosedProofs TensorModel TensorSpec KernelModel KernelSpec KernelCases
  NeighborsModel NeighborsSpec NeighborsProofs BatchProofs FlowModel FlowSpec FlowProofs PointwiseSpec LibSpec LibProofs
  MultiModel DriverModel WorkModel WorkSpec WorkProofs WorkLemmas WorkProps BestSpec BestProofs BestGram CalibModel CalibSpec CalibProofs.
Local Open Scope R_scope.
Local Open Scope string_scope.

(** * C107 *)
(** Random targets whose neighbourhoods have covariance sc times the noisy kernel matrices: the expected estimate is sc. *)
Theorem C107_unbiased : forall ls, exact_solver ls -> forall outcomes pi g it kw Kin T b n sc,
  (it <= 1)%nat -> (0 < b)%nat -> (0 < n)%nat -> noise_fits (gp_noise g) b n -> shape Kin = [b; n; n] ->
  (forall o, (o < outcomes)%nat -> univariate_shape (T o) b n) ->
  (forall x, (x < b)%nat -> nonsingular n (noisy (gp_noise g) Kin x)) ->
  target_moments outcomes pi T b n (noisy (gp_noise g) Kin) sc ->
  exists h, (forall o, (o < outcomes)%nat -> analytic_scale_opt ls g it Kin (T o) kw = Ok (h o)) /\ expect outcomes pi h = sc.
Proof. exact unbiased. Qed.
Print Assumptions C107_unbiased.

(** The same for one down-sampled estimate (iteration_count = 1), whatever positions were drawn. *)
Theorem C107_down_sampled : forall ls, exact_solver ls -> forall outcomes pi g down draws Kin T b n sc,
  noise_fits (gp_noise g) b n -> shape Kin = [b; n; n] -> (0 < b)%nat -> (0 < down < n)%nat ->
  (forall o, (o < outcomes)%nat -> univariate_shape (T o) b n) ->
  (forall x, (x < b)%nat -> pd n (noisy (gp_noise g) Kin x)) ->
  NoDup (draws O) -> List.length (draws O) = down -> (forall a, In a (draws O) -> (a < n)%nat) ->
  target_moments outcomes pi T b n (noisy (gp_noise g) Kin) sc ->
  exists h, (forall o, (o < outcomes)%nat -> downsample_scale_opt ls g down 1 draws Kin (T o) = Ok (Some (h o))) /\ expect outcomes pi h = sc.
Proof. exact down_unbiased. Qed.
Print Assumptions C107_down_sampled.

(** From data: responses of the training rows with the covariance of the model.  optimize_scale stores an estimate of expected value sc;
    it refuses exactly the outcomes where every listed response is zero. *)
Theorem C107_from_indices : forall gamma kv ls, exact_solver ls -> forall outcomes pi f y g it draws K cur nn test train targets N M b w q sc,
  gp_kind g = AnalyticScale it -> (it <= 1)%nat -> (0 < b)%nat -> (0 < w)%nat -> uniform_noise (gp_noise g) ->
  lk_ok K (feature_count train) cur [] -> dataset train N -> index_matrix nn b w N q -> distinct_lists b w q ->
  well_posed (gp_noise g) train b w q ->
  data_moments outcomes pi f y (lk_cov gamma kv K (feature_count train) cur []) (gp_noise g) sc test train M N ->
  (forall o, (o < outcomes)%nat -> shape (targets o) = [N] /\ forall a, (a < N)%nat -> at_ (targets o) [a] = y a o) ->
  exists h, expect outcomes pi h = sc /\ forall o, (o < outcomes)%nat -> 0 <= h o /\
    (0 < h o <-> exists x i, (x < b)%nat /\ (i < w)%nat /\ y (q x i) o <> 0) /\
    (h o = 0 -> optimize_scale_from_indices ls (lib_model gamma kv g K cur) draws nn train (targets o) = Err ValueError) /\
    (0 < h o -> exists g', optimize_scale_from_indices ls (lib_model gamma kv g K cur) draws nn train (targets o) = Ok (lib_model gamma kv g' K cur) /\
       gp_scale g' = h o /\ gp_var_scale g' = h o /\ gp_noise g' = gp_noise g /\ gp_kind g' = gp_kind g /\ gp_Kout g' = gp_Kout g).
Proof. exact unbiased_from_indices. Qed.
Print Assumptions C107_from_indices.

(** The variances reported after optimize_scale have, at every test row, the expected value of the squared error of the reported means. *)
Theorem C107_calibrated : forall gamma kv ls, exact_solver ls -> forall knn hnsw dist, sklearn_ok knn dist ->
  forall outcomes pi f y en method kw wr g it draws K cur nn test train targets N M n b w q sc,
  lower method = "exact" -> euclidean_kw kw -> nn_init en (rows_of train) n method kw = Ok wr -> (0 < n <= N /\ 0 < M)%nat ->
  gp_kind g = AnalyticScale it -> (it <= 1)%nat -> (0 < b)%nat -> (0 < w)%nat -> uniform_noise (gp_noise g) ->
  shape (gp_Kout g) = [] -> at_ (gp_Kout g) [] = 1 ->
  lk_ok K (feature_count train) cur [] -> dataset test M -> dataset train N -> ndim test = ndim train ->
  feature_count test = feature_count train -> index_matrix nn b w N q -> distinct_lists b w q ->
  well_posed (gp_noise g) train b w q -> sound_noise (gp_noise g) train N M n ->
  data_moments outcomes pi f y (lk_cov gamma kv K (feature_count train) cur []) (gp_noise g) sc test train M N ->
  (forall o, (o < outcomes)%nat -> shape (targets o) = [N] /\ forall a, (a < N)%nat -> at_ (targets o) [a] = y a o) ->
  (forall o, (o < outcomes)%nat -> exists x i, (x < b)%nat /\ (i < w)%nat /\ y (q x i) o <> 0) ->
  exists m mean var, (forall o, (o < outcomes)%nat ->
      optimize_scale_from_indices ls (lib_model gamma kv g K cur) draws nn train (targets o) = Ok (m o) /\
      regress_any ls knn hnsw (Univariate (m o)) test train wr (targets o) = Ok (mean o, var o)) /\
    forall x, (x < M)%nat ->
      expect outcomes pi (fun o => at_ (var o) [x]) = expect outcomes pi (fun o => (f x o - at_ (mean o) [x]) ^ 2).
Proof. exact calibrated. Qed.
Print Assumptions C107_calibrated.

(** Finding: with iteration_count = 2 the expected estimate is (sc + 1) / 2, not sc. *)
Theorem C107_iterated_refuted : forall ls, exact_solver ls -> forall outcomes pi g kw Kin T b n sc,
  (0 < b)%nat -> (0 < n)%nat -> noise_fits (gp_noise g) b n -> shape Kin = [b; n; n] -> probability outcomes pi ->
  (forall o, (o < outcomes)%nat -> univariate_shape (T o) b n) ->
  (forall x, (x < b)%nat -> nonsingular n (noisy (gp_noise g) Kin x)) ->
  target_moments outcomes pi T b n (noisy (gp_noise g) Kin) sc ->
  (forall o, (o < outcomes)%nat -> exists s, 0 < s /\ analytic_scale_opt ls g 1 Kin (T o) kw = Ok s) ->
  exists h, (forall o, (o < outcomes)%nat -> analytic_scale_opt ls g 2 Kin (T o) kw = Ok (h o)) /\ expect outcomes pi h = (sc + 1) / 2.
Proof. exact twice_biased. Qed.
Print Assumptions C107_iterated_refuted.

(** Latent values and responses with the moments of the model exist for all data, kernels, noises and scales. *)
Theorem C107_moments_exist : forall gamma kv K cur m sc test train M N, lk_ok K (feature_count train) cur [] -> 0 <= sc -> 0 <= noise_at m None 0 0 ->
  exists outcomes pi f y, data_moments outcomes pi f y (lk_cov gamma kv K (feature_count train) cur []) m sc test train M N.
Proof. exact data_moments_exist. Qed.
Print Assumptions C107_moments_exist.

(** The hypotheses of C107_calibrated hold in a non-trivial case: one training row, one test row elsewhere, four equally likely outcomes. *)
Definition ex107_train : nd R := mkNd [1%nat] (fun _ => 0).
Definition ex107_test : nd R := mkNd [1%nat] (fun _ => 1).
Definition ex107_gp : gp := mkGp NullNoise (AnalyticScale 1) 1 1 (mkNd [] (fun _ => 1)).
Definition sign107 (b : bool) : R := if b then 1 else -1.
Definition ex107_y (a o : nat) : R := 2 * sign107 (Nat.even o).
Definition ex107_nn : nd Z := mkNd [1; 1]%nat (fun _ => 0%Z).

Example C107_sat : forall gamma kv, exists f, 
  let c := lk_cov gamma kv ex80_K (feature_count ex107_train) (fun _ => 1) [] in
  data_moments 4 (fun _ => / 4) f ex107_y c NullNoise 4 ex107_test ex107_train 1 1 /\
  kcov c ex107_test ex107_train 0 0 = exp (- (1 / 2)) /\
  lk_ok ex80_K (feature_count ex107_train) (fun _ => 1) [] /\
  index_matrix ex107_nn 1 1 1 (fun _ _ => 0%nat) /\ distinct_lists 1 1 (fun _ _ => 0%nat) /\
  well_posed NullNoise ex107_train 1 1 (fun _ _ => 0%nat) /\ sound_noise NullNoise ex107_train 1 1 1 /\
  (forall o, (o < 4)%nat -> exists x i, (x < 1)%nat /\ (i < 1)%nat /\ ex107_y 0 o <> 0).
Proof.
  intros gamma kv.
  assert (OK : lk_ok ex80_K (feature_count ex107_train) (fun _ => 1) []).
  { destruct C80_sat as (knn & dist & w & w' & H). decompose [and] H. assumption. }
  set (c := lk_cov gamma kv ex80_K (feature_count ex107_train) (fun _ => 1) []).
  assert (KC : kcov c ex107_test ex107_train 0 0 = exp (- (1 / 2))).
  { unfold kcov, c. lazy -[IZR Rdiv exp Ropp Rplus Rmult Rinv Rminus sqrt Rpower ln pow]. f_equal. field. }
  assert (KS : kcov c ex107_test ex107_test 0 0 = 1) by (apply (self_cov gamma kv ex80_K _ _ [] ex107_test 0 OK)).
  assert (KT : kcov c ex107_train ex107_train 0 0 = 1) by (apply (self_cov gamma kv ex80_K _ _ [] ex107_train 0 OK)).
  set (e := exp (- (1 / 2))) in *.
  assert (E01 : 0 < e < 1). { split; [apply exp_pos|]. unfold e. rewrite <- exp_0 at 2. apply exp_increasing. lra. }
  set (r := sqrt (1 - e * e)). assert (RR : r * r = 1 - e * e) by (apply sqrt_sqrt; nra).
  exists (fun _ o => 2 * (e * sign107 (Nat.even o) + r * sign107 (Nat.even (o / 2)))). cbv zeta.
  split; [|split; [exact KC|split; [exact OK|]]].
  - constructor.
    + split; [cbn; lra|intros; lra].
    + intros x Hx. replace x with O by lia. rewrite KS. unfold expect. cbn [rsum Nat.even Nat.div Nat.divmod fst sign107]. nra.
    + intros x a Hx Ha. replace x with O by lia. replace a with O by lia. rewrite KC. unfold expect, ex107_y.
      cbn [rsum Nat.even Nat.div Nat.divmod fst sign107]. nra.
    + intros a a' Ha Ha'. replace a with O by lia. replace a' with O by lia. rewrite KT. unfold expect, ex107_y.
      cbn [rsum Nat.even Nat.eqb noise_at sign107]. lra.
  - split; [split; [reflexivity|intros x j Hx Hj; split; [reflexivity|lia]]|].
    split; [intros x i j Hx Hi Hj _; lia|]. split.
    + intros x Hx. right. split; [intros; cbn; lra|]. intros i j Hi Hj; lia.
    + split; [right; split; [intros; cbn; lra|intros i j Hi Hj; lia]|].
      intros o Ho. exists O, O. split; [lia|]. split; [lia|]. unfold ex107_y, sign107. destruct (Nat.even o); lra.
Qed.
