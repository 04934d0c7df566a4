(** Property theorems C101 (predictions far from the data) and C102 (dependence on the responses). *)
From Coq Require Import Lia Lra.
From Verif Require Import Base BaseFacts NdModel NdFacts RSum HyperModel NamedModel NamedSpec LinAlgModel LinAlgSpec LinAlgFacts Gauss
  GPModel NoiseModel MuyGPSModel GPSpec GPTheorems WellPosedProofs TensorModel TensorSpec TensorProofs KernelModel KernelSpec
  NeighborsModel NeighborsSpec NeighborsProofs FlowModel FlowSpec FlowProofs PointwiseSpec LibSpec LibProofs
  MultiModel DriverModel WorkModel WorkSpec WorkProofs WorkLemmas WorkProps BestSpec LocalSpec LocalProps FarSpec FarProofs.
Local Open Scope R_scope.
Local Open Scope string_scope.

(** * C101 *)
(** Far from the training data the predictions revert to the prior: for every tolerance there is a distance such that, for whatever test set,
    noise, and responses of size at most [Y], every test row farther than that from all training rows is predicted 0 with the prior
    variance, up to the tolerance. *)
Theorem C101_reverts_to_prior : forall gamma kv ls, exact_solver ls -> forall knn hnsw dist, sklearn_ok knn dist ->
  forall K cur train N n nu sc Y eps,
  dataset train N -> lk_ok K (feature_count train) cur [] -> (0 < n <= N)%nat -> 0 < nu -> 0 <= sc -> 0 < eps ->
  exists D, 0 < D /\ forall en method kw w g test targets M ex,
  lower method = "exact" -> euclidean_kw kw -> nn_init en (rows_of train) n method kw = Ok w -> (0 < M)%nat ->
  dataset test M -> ndim test = ndim train -> feature_count test = feature_count train -> shape targets = N :: ex -> no_coincidence ex [n] ->
  (forall a e, (a < N)%nat -> inb ex e -> Rabs (at_ targets (a :: e)) <= Y) ->
  shape (gp_Kout g) = [] -> at_ (gp_Kout g) [] = 1 -> gp_var_scale g = sc -> noise_fits (gp_noise g) M n -> robust (gp_noise g) nu train N M n ->
  exists mean var,
    regress_any ls knn hnsw (Univariate (lib_model gamma kv g K cur)) test train w targets = Ok (mean, var) /\
    forall x, (x < M)%nat -> far_from test train N x D ->
      sc - eps <= at_ var [x] <= sc /\ forall e, inb ex e -> Rabs (at_ mean (x :: e)) <= eps.
Proof. exact far_reverts. Qed.
Print Assumptions C101_reverts_to_prior.

(** With noise of at least [nu], explicitly: the mean decays at least like the inverse of the distance, the variance's deficit like its square
    ([L] is the largest length scale). *)
Theorem C101_rate : forall gamma kv ls, exact_solver ls -> forall knn hnsw dist, sklearn_ok knn dist ->
  forall en method kw w g K cur test train targets N M n ex nu L Y,
  lower method = "exact" -> euclidean_kw kw -> nn_init en (rows_of train) n method kw = Ok w -> (0 < n <= N /\ 0 < M)%nat ->
  dataset test M -> dataset train N -> ndim test = ndim train -> feature_count test = feature_count train ->
  lk_ok K (feature_count train) cur [] -> shape targets = N :: ex -> no_coincidence ex [n] ->
  shape (gp_Kout g) = [] -> at_ (gp_Kout g) [] = 1 -> 0 <= gp_var_scale g -> noise_fits (gp_noise g) M n ->
  0 < nu -> noise_at_least (gp_noise g) nu M n ->
  (forall f, (f < feature_count train)%nat -> scale_of (lk_def K) cur [] f <= L) ->
  (forall a e, (a < N)%nat -> inb ex e -> Rabs (at_ targets (a :: e)) <= Y) ->
  exists mean var,
    regress_any ls knn hnsw (Univariate (lib_model gamma kv g K cur)) test train w targets = Ok (mean, var) /\
    forall x D, (x < M)%nat -> 0 < D -> far_from test train N x D ->
      gp_var_scale g * (1 - 36 * L ^ 2 * INR n / (D ^ 2 * nu)) <= at_ var [x] <= gp_var_scale g /\
      forall e, inb ex e -> Rabs (at_ mean (x :: e)) <= 6 * L * INR n * Y / (D * nu).
Proof. exact far_rate. Qed.
Print Assumptions C101_rate.

(** * C102 *)
(** Predictions are additive and homogeneous in the responses, response by response; the variance does not depend on them. *)
Theorem C102_superposition : forall gamma kv ls, exact_solver ls -> forall knn hnsw dist, sklearn_ok knn dist ->
  forall en method kw w g K cur test train targets targets' N M n ex a b,
  lower method = "exact" -> euclidean_kw kw -> nn_init en (rows_of train) n method kw = Ok w -> (0 < n <= N /\ 0 < M)%nat ->
  dataset test M -> dataset train N -> ndim test = ndim train -> feature_count test = feature_count train ->
  lk_ok K (feature_count train) cur [] -> shape targets = N :: ex -> shape targets' = N :: ex -> no_coincidence ex [n] ->
  shape (gp_Kout g) = [] -> at_ (gp_Kout g) [] = 1 -> 0 <= gp_var_scale g -> noise_fits (gp_noise g) M n -> sound_noise (gp_noise g) train N M n ->
  let both := mkNd (N :: ex) (fun idx => a * at_ targets idx + b * at_ targets' idx) in
  exists mean mean' mean'' var var' var'',
    regress_any ls knn hnsw (Univariate (lib_model gamma kv g K cur)) test train w targets = Ok (mean, var) /\
    regress_any ls knn hnsw (Univariate (lib_model gamma kv g K cur)) test train w targets' = Ok (mean', var') /\
    regress_any ls knn hnsw (Univariate (lib_model gamma kv g K cur)) test train w both = Ok (mean'', var'') /\
    forall x, (x < M)%nat -> at_ var' [x] = at_ var [x] /\ at_ var'' [x] = at_ var [x] /\
      forall e, inb ex e -> at_ mean'' (x :: e) = a * at_ mean (x :: e) + b * at_ mean' (x :: e).
Proof. exact superposition. Qed.
Print Assumptions C102_superposition.

(** Errors in the responses are amplified by a bounded factor only: one factor for all test sets and responses, and sqrt (n / nu) when the
    noise is at least [nu]. *)
Theorem C102_stable : forall gamma kv ls, exact_solver ls -> forall knn hnsw dist, sklearn_ok knn dist ->
  forall K cur train N n nu,
  dataset train N -> lk_ok K (feature_count train) cur [] -> (0 < n <= N)%nat -> 0 < nu ->
  exists C, 0 < C /\ forall en method kw w g test targets targets' M ex,
  lower method = "exact" -> euclidean_kw kw -> nn_init en (rows_of train) n method kw = Ok w -> (0 < M)%nat ->
  dataset test M -> ndim test = ndim train -> feature_count test = feature_count train ->
  shape targets = N :: ex -> shape targets' = N :: ex -> no_coincidence ex [n] ->
  shape (gp_Kout g) = [] -> at_ (gp_Kout g) [] = 1 -> 0 <= gp_var_scale g -> noise_fits (gp_noise g) M n -> robust (gp_noise g) nu train N M n ->
  exists mean mean' var var',
    regress_any ls knn hnsw (Univariate (lib_model gamma kv g K cur)) test train w targets = Ok (mean, var) /\
    regress_any ls knn hnsw (Univariate (lib_model gamma kv g K cur)) test train w targets' = Ok (mean', var') /\
    forall x e d, (x < M)%nat -> inb ex e -> 0 <= d ->
      (forall a, (a < N)%nat -> Rabs (at_ targets' (a :: e) - at_ targets (a :: e)) <= d) ->
      Rabs (at_ mean' (x :: e) - at_ mean (x :: e)) <= C * d.
Proof.
  intros gamma kv ls EX knn hnsw dist Hsk K cur train N n nu D2 OK Hn NU.
  destruct (robust_coercive gamma kv K cur train N nu OK NU) as (c & C0 & CO).
  assert (I0 : 0 <= INR n / c) by (apply Rmult_le_pos; [apply pos_INR|left; apply Rinv_0_lt_compat; exact C0]).
  exists (1 + sqrt (INR n / c)). split; [pose proof (sqrt_pos (INR n / c)); lra|].
  intros en method kw w g test targets targets' M ex Hm He Hi M0 D1 ND FC HT HT' NC SK K1 SC NF RB.
  destruct (sensitive_any gamma kv ls EX knn hnsw dist Hsk c en method kw w g K cur test train targets targets' N M n ex)
    as (mean & mean' & var & var' & E & E' & V); auto.
  - apply (robust_sound _ nu); auto.
  - intros q x Hx QB QI. apply (CO (gp_noise g) M n q x RB Hx QB QI).
  - exists mean, mean', var, var'. split; [exact E|]. split; [exact E'|]. intros x e d Hx Hie D0 DB.
    specialize (V x e d Hx Hie DB). set (t := at_ mean' (x :: e) - at_ mean (x :: e)) in *.
    apply Rle_trans with (sqrt (INR n / c) * d); [|apply Rmult_le_compat_r; [exact D0|lra]].
    apply Rsqr_incr_0_var; [|apply Rmult_le_pos; [apply sqrt_pos|exact D0]]. rewrite <- Rsqr_abs, Rsqr_mult, Rsqr_sqrt by exact I0.
    unfold Rsqr. apply Rmult_le_reg_l with c; [exact C0|]. replace (c * (INR n / c * (d * d))) with (INR n * d ^ 2) by (field; lra).
    replace (t * t) with (t ^ 2) by ring. exact V.
Qed.
Print Assumptions C102_stable.

Theorem C102_stable_rate : forall gamma kv ls, exact_solver ls -> forall knn hnsw dist, sklearn_ok knn dist ->
  forall en method kw w g K cur test train targets targets' N M n ex nu,
  lower method = "exact" -> euclidean_kw kw -> nn_init en (rows_of train) n method kw = Ok w -> (0 < n <= N /\ 0 < M)%nat ->
  dataset test M -> dataset train N -> ndim test = ndim train -> feature_count test = feature_count train ->
  lk_ok K (feature_count train) cur [] -> shape targets = N :: ex -> shape targets' = N :: ex -> no_coincidence ex [n] ->
  shape (gp_Kout g) = [] -> at_ (gp_Kout g) [] = 1 -> 0 <= gp_var_scale g -> noise_fits (gp_noise g) M n ->
  0 < nu -> noise_at_least (gp_noise g) nu M n ->
  exists mean mean' var var',
    regress_any ls knn hnsw (Univariate (lib_model gamma kv g K cur)) test train w targets = Ok (mean, var) /\
    regress_any ls knn hnsw (Univariate (lib_model gamma kv g K cur)) test train w targets' = Ok (mean', var') /\
    forall x e d, (x < M)%nat -> inb ex e ->
      (forall a, (a < N)%nat -> Rabs (at_ targets' (a :: e) - at_ targets (a :: e)) <= d) ->
      nu * (at_ mean' (x :: e) - at_ mean (x :: e)) ^ 2 <= INR n * d ^ 2.
Proof.
  intros gamma kv ls EX knn hnsw dist Hsk en method kw w g K cur test train targets targets' N M n ex nu Hm He Hi Hn D1 D2 ND FC OK HT HT' NC
    SK K1 SC NF NU NL.
  apply (sensitive_any gamma kv ls EX knn hnsw dist Hsk nu en method kw w g K cur test train targets targets' N M n ex); auto.
  - left. intros x i Hx Hi0. specialize (NL x i Hx Hi0). lra.
  - intros q x Hx _ _. apply (noise_coercive gamma kv K cur _ nu train M); auto.
Qed.
Print Assumptions C102_stable_rate.

(** The data of C80_sat (training rows 0, 1, 3; responses 0, 1, 2): with noise 1/10, or without noise since the rows are distinct; and for
    every distance a test set with a row that far away. *)
Definition ex101_test (D : R) : nd R := mkNd [2%nat] (fun idx => match idx with [O] => 1 | _ => 3 + D end).
Example C101_sat : exists w, nn_init false (rows_of ex80_train) 2 "exact" [] = Ok w /\
  robust (gp_noise ex80_gp) 1 ex80_train 3 2 2 /\ robust (gp_noise ex95_gp) (1/10) ex80_train 3 2 2 /\ noise_at_least (gp_noise ex95_gp) (1/10) 2 2 /\
  (forall a e, (a < 3)%nat -> inb [] e -> Rabs (at_ ex80_targets (a :: e)) <= 2) /\
  (forall f, (f < feature_count ex80_train)%nat -> scale_of (lk_def ex80_K) (fun _ => 1) [] f <= 1) /\
  forall D, 0 < D -> dataset (ex101_test D) 2 /\ ndim (ex101_test D) = ndim ex80_train /\ feature_count (ex101_test D) = feature_count ex80_train /\
    far_from (ex101_test D) ex80_train 3 1 D.
Proof.
  destruct C80_sat as (knn & dist & w & w' & H). decompose [and] H. eexists. split; [reflexivity|].
  assert (NL : noise_at_least (gp_noise ex95_gp) (1/10) 2 2) by (intros x i _ _; cbn; lra).
  split. { right. split; [intros x i _ _; cbn; lra|assumption]. }
  split; [left; exact NL|]. split; [exact NL|]. split.
  { intros a e Ha _. cbn [ex80_targets at_ hd]. rewrite Rabs_pos_eq by apply pos_INR. apply (le_INR a 2). lia. }
  split; [intros f _; cbn; lra|]. intros D D0. split; [left; reflexivity|]. split; [reflexivity|]. split; [reflexivity|].
  intros a Ha. unfold euclid, sqdist, feature, feature_count, ex80_train, ex101_test. cbn [shape at_ rsum].
  rewrite Rplus_0_l, sqrt_pow2; destruct a as [|[|[|a]]]; try lia; lra.
Qed.
Example C102_sat : shape ex80_targets' = [3%nat] /\ (forall a, (a < 3)%nat -> Rabs (at_ ex80_targets' [a] - at_ ex80_targets [a]) <= 2).
Proof.
  split; [reflexivity|]. intros a Ha. cbn [ex80_targets ex80_targets' at_ hd].
  destruct a as [|[|[|a]]]; try lia; cbn [Nat.sub INR]; apply Rabs_le; lra.
Qed.
