(** Property theorems C90 (best linear prediction) and C91 (more neighbours never increase the variance). *)
From Coq Require Import Lia Lra.
From Verif Require Import Base BaseFacts NdModel NdFacts RSum HyperModel NamedModel NamedSpec LinAlgModel LinAlgSpec LinAlgFacts Gauss
  GPModel NoiseModel MuyGPSModel GPSpec GPTheorems WellPosedProofs TensorModel TensorSpec KernelModel KernelSpec KernelCases
  NeighborsModel NeighborsSpec NeighborsProofs BatchProofs FlowModel FlowSpec FlowProofs PointwiseSpec LibSpec LibProofs
  MultiModel DriverModel WorkModel WorkSpec WorkProofs WorkLemmas WorkProps BestSpec BestProofs BestGram.
Local Open Scope R_scope.
Local Open Scope string_scope.

(** * C90 *)
(** Every mean is a linear combination of the responses of the n nearest training rows, with the same weights for every response; no
    other weights have as small an error variance, and the variance is that error variance times the variance scale. *)
Theorem C90_best_linear : forall gamma kv ls, exact_solver ls -> forall knn hnsw dist, sklearn_ok knn dist ->
  forall en method kw w g K cur test train targets N M n ex,
  lower method = "exact" -> euclidean_kw kw -> nn_init en (rows_of train) n method kw = Ok w -> (0 < n <= N /\ 0 < M)%nat ->
  dataset test M -> dataset train N -> ndim test = ndim train -> feature_count test = feature_count train ->
  lk_ok K (feature_count train) cur [] -> shape targets = N :: ex -> no_coincidence ex [n] ->
  shape (gp_Kout g) = [] -> at_ (gp_Kout g) [] = 1 -> 0 <= gp_var_scale g ->
  noise_fits (gp_noise g) M n -> sound_noise (gp_noise g) train N M n ->
  exists mean var q u,
    regress_any ls knn hnsw (Univariate (lib_model gamma kv g K cur)) test train w targets = Ok (mean, var) /\
    forall x, (x < M)%nat ->
      nearest_rows test train N x n (q x) /\
      (forall e, inb ex e -> at_ mean (x :: e) = rsum n (fun j => u x j * at_ targets (q x j :: e))) /\
      (let error := error_variance (lk_cov gamma kv K (feature_count train) cur []) (gp_noise g) test train x n (q x) in
       at_ var [x] = gp_var_scale g * error (u x) /\
       forall v, error (u x) <= error v /\ (error v = error (u x) -> forall j, (j < n)%nat -> v j = u x j)).
Proof. exact best_linear. Qed.
Print Assumptions C90_best_linear.

(** In any probability space: if the latent value at a test row and the observations at its neighbours have the second moments the model
    assigns, the reported variance is the mean squared error of the reported predictor, and no linear predictor has a smaller one. *)
Theorem C90_mean_squared_error : forall gamma kv ls, exact_solver ls -> forall knn hnsw dist, sklearn_ok knn dist ->
  forall en method kw w g K cur test train targets N M n ex,
  lower method = "exact" -> euclidean_kw kw -> nn_init en (rows_of train) n method kw = Ok w -> (0 < n <= N /\ 0 < M)%nat ->
  dataset test M -> dataset train N -> ndim test = ndim train -> feature_count test = feature_count train ->
  lk_ok K (feature_count train) cur [] -> shape targets = N :: ex -> no_coincidence ex [n] ->
  shape (gp_Kout g) = [] -> at_ (gp_Kout g) [] = 1 -> 0 <= gp_var_scale g ->
  noise_fits (gp_noise g) M n -> sound_noise (gp_noise g) train N M n ->
  exists mean var q u,
    regress_any ls knn hnsw (Univariate (lib_model gamma kv g K cur)) test train w targets = Ok (mean, var) /\
    forall x, (x < M)%nat ->
      nearest_rows test train N x n (q x) /\
      (forall e, inb ex e -> at_ mean (x :: e) = rsum n (fun j => u x j * at_ targets (q x j :: e))) /\
      forall outcomes pi f y,
        model_moments outcomes pi f y (lk_cov gamma kv K (feature_count train) cur []) (gp_noise g) (gp_var_scale g) test train x n (q x) ->
        at_ var [x] = mean_squared_error outcomes pi f y n (u x) /\
        forall v, mean_squared_error outcomes pi f y n (u x) <= mean_squared_error outcomes pi f y n v.
Proof. exact best_mse. Qed.
Print Assumptions C90_mean_squared_error.

(** * C91 *)
(** With neighbour indices given: enlarging every neighbourhood (in any order) never increases a variance. *)
Theorem C91_more_neighbors_indices : forall gamma kv ls, exact_solver ls ->
  forall g K cur nn nn' test train targets N M n n' q q' ex,
  lk_ok K (feature_count train) cur [] -> dataset test M -> dataset train N -> ndim test = ndim train ->
  feature_count test = feature_count train -> shape targets = N :: ex -> no_coincidence ex [n] -> no_coincidence ex [n'] ->
  shape (gp_Kout g) = [] -> at_ (gp_Kout g) [] = 1 -> 0 <= gp_var_scale g ->
  index_matrix nn M n N q -> index_matrix nn' M n' N q' -> uniform_noise (gp_noise g) ->
  well_posed (gp_noise g) train M n q -> well_posed (gp_noise g) train M n' q' ->
  exists mean var mean' var',
    regress_from_indices ls (lib_model gamma kv g K cur) (arange M) nn test train targets = Ok (mean, var) /\
    regress_from_indices ls (lib_model gamma kv g K cur) (arange M) nn' test train targets = Ok (mean', var') /\
    forall x, (x < M)%nat -> among n (q x) n' (q' x) -> at_ var' [x] <= at_ var [x].
Proof. exact more_neighbors. Qed.
Print Assumptions C91_more_neighbors_indices.

(** Predicting with a lookup of more neighbours never increases the variance of a row whose distances are not tied. *)
Theorem C91_more_neighbors : forall gamma kv ls, exact_solver ls -> forall knn hnsw dist, sklearn_ok knn dist ->
  forall en method kw w en' method' kw' w' g K cur test train targets N M n n' ex,
  lower method = "exact" -> euclidean_kw kw -> nn_init en (rows_of train) n method kw = Ok w ->
  lower method' = "exact" -> euclidean_kw kw' -> nn_init en' (rows_of train) n' method' kw' = Ok w' -> (0 < n <= n' /\ n' <= N /\ 0 < M)%nat ->
  dataset test M -> dataset train N -> ndim test = ndim train -> feature_count test = feature_count train ->
  lk_ok K (feature_count train) cur [] -> shape targets = N :: ex -> no_coincidence ex [n] -> no_coincidence ex [n'] ->
  shape (gp_Kout g) = [] -> at_ (gp_Kout g) [] = 1 -> 0 <= gp_var_scale g ->
  uniform_noise (gp_noise g) -> sound_noise (gp_noise g) train N M n' ->
  exists mean var mean' var',
    regress_any ls knn hnsw (Univariate (lib_model gamma kv g K cur)) test train w targets = Ok (mean, var) /\
    regress_any ls knn hnsw (Univariate (lib_model gamma kv g K cur)) test train w' targets = Ok (mean', var') /\
    forall x, (x < M)%nat -> no_ties test train N x -> at_ var' [x] <= at_ var [x].
Proof. exact more_neighbors_any. Qed.
Print Assumptions C91_more_neighbors.

(** Random variables with the second moments of the model exist for every kernel, noise, test row and list of neighbours, so
    C90_mean_squared_error is about some probability space in every case. *)
Theorem C90_moments_exist : forall gamma kv K cur m sc test train x n q,
  lk_ok K (feature_count train) cur [] -> 0 <= sc -> (forall i, (i < n)%nat -> 0 <= noise_at m None x i) ->
  exists outcomes pi f y, model_moments outcomes pi f y (lk_cov gamma kv K (feature_count train) cur []) m sc test train x n q.
Proof. intros gamma kv K cur. exact (moments_exist gamma kv K cur []). Qed.
Print Assumptions C90_moments_exist.

(** The error variance is not trivially small: predicting zero has the prior variance. *)
Example C90_error_prior : forall gamma kv K cur m test train x n q, lk_ok K (feature_count train) cur [] ->
  error_variance (lk_cov gamma kv K (feature_count train) cur []) m test train x n q (fun _ => 0) = 1.
Proof.
  intros gamma kv K cur m test train x n q OK. unfold error_variance. rewrite (self_cov gamma kv K _ cur [] test x OK).
  rewrite (rsum_ext n _ (fun _ => 0)) by (intros; ring). rewrite rsum_0.
  rewrite (rsum_ext n _ (fun _ => 0)); [rewrite rsum_0; ring|]. intros i Hi. rewrite (rsum_ext n _ (fun _ => 0)); [apply rsum_0|intros; ring].
Qed.

(** The hypotheses of C90 and C91 hold for the data of C80_sat with one and two neighbours. *)
Example C91_sat : exists w w',
  nn_init false (rows_of ex80_train) 1 "exact" [] = Ok w /\ nn_init false (rows_of ex80_train) 2 "exact" [] = Ok w' /\
  uniform_noise (gp_noise ex80_gp) /\ sound_noise (gp_noise ex80_gp) ex80_train 3 2 2 /\ no_coincidence [] [1%nat] /\
  (1 <= 2 <= 3)%nat /\ no_ties ex80_test ex80_train 3 1 /\
  among 1 (fun _ => 0%nat) 2 (fun j => (1 - j)%nat).
Proof.
  destruct C80_sat as (knn & dist & w & w' & H). decompose [and] H. do 2 eexists. split; [reflexivity|]. split; [reflexivity|].
  split; [left; reflexivity|]. split; [assumption|]. split; [apply no_coincidence_nil|]. split; [lia|]. split; [assumption|].
  exists (fun _ => 1%nat). split; [intros i Hi; split; [lia|reflexivity]|intros; lia].
Qed.
