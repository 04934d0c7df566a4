(** Property theorems C46 (fast prediction workflows) and C60 (prediction from indices). *)
From Coq Require Import Lia Lra.
From Verif Require Import Base NdModel NdFacts RSum LinAlgModel LinAlgSpec LinAlgFacts
  GPModel NoiseModel MuyGPSModel GPSpec Gauss TensorModel TensorSpec
  FlowModel FlowSpec FlowProofs FlowLemmas.
Local Open Scope R_scope.

(** * C46 *)
(** Assembled with a single update of the neighbour matrix (coefficients from
    make_fast_predict_tensors on the raw neighbours, prediction on the updated ones), the fast
    workflow returns, for test point x with closest training row c, the kriging prediction
    from rows c, q c 0, q c 1, ...: every weight meets its own neighbour. *)
Theorem C46_single_update_workflow : forall ls, exact_solver ls ->
  forall g F kern k nn test_nn test train targets N M w w' q p r,
  pointwise_kernel F kern k -> dataset test M -> dataset train N -> ndim test = ndim train ->
  feature_count test = F -> feature_count train = F -> shape targets = [N; r] ->
  index_matrix nn N (S w) N q -> index_matrix test_nn M (S w') N p ->
  N <> 1%nat -> M <> 1%nat -> (S w <> 1)%nat -> noise_fits (gp_noise g) N (S w) ->
  (forall i j, kcov k train train i j = kcov k train train j i) ->
  (forall c, (c < N)%nat -> nonsingular (S w) (nbr_matrix k (gp_noise g) train (with_self q) c)) ->
  exists out, manual_fast_workflow ls g kern nn (fast_nn_update nn) test_nn test train targets = Ok out /\
    shape out = (if (r =? 1)%nat then [M] else [M; r]) /\
    forall x s, (x < M)%nat -> (s < r)%nat ->
      kriging (S w) (nbr_matrix k (gp_noise g) train (with_self q) (p x O))
        (fun j => kcov k test train x (with_self q (p x O) j))
        (fun j => at_ targets [with_self q (p x O) j; s]) (at_ out (out_idx r x s)).
Proof. exact manual_kriging. Qed.
Print Assumptions C46_single_update_workflow.

(** The coefficients are only computed from a neighbour matrix with one row per training point:
    otherwise row numbers and neighbours could not be matched, and ValueError is raised. *)
Theorem C46_row_count_checked : forall nn train targets n k N, dataset train N -> shape nn = [n; k] -> n <> N ->
  make_fast_predict_tensors nn train targets = Err ValueError.
Proof. exact make_fast_row_mismatch. Qed.
Print Assumptions C46_row_count_checked.

(** The packaged fast_posterior_mean_any multiplies coefficient j, computed for the j-th of the
    rows c, q c 0, q c 1, ..., with the kernel value of the j-th of c, c, q c 0, ...: for every
    data set, all positions past the first are paired with the wrong neighbour. *)
Theorem C46_packaged_workflow_refuted : forall ls, exact_solver ls ->
  forall g F kern k nn test_nn test train targets N M w w' q p r,
  pointwise_kernel F kern k -> dataset train N -> shape test = [M; F] -> ndim train = 2%nat ->
  feature_count train = F -> shape targets = [N; r] ->
  index_matrix nn N (S w) N q -> index_matrix test_nn M (S w') N p ->
  N <> 1%nat -> M <> 1%nat -> (S w <> 1)%nat -> noise_fits (gp_noise g) N (S w) ->
  (forall c, (c < N)%nat -> nonsingular (S w) (nbr_matrix k (gp_noise g) train (with_self q) c)) ->
  exists out coef, fast_posterior_mean_any ls g kern nn test_nn test train targets = Ok out /\
    shape out = (if (r =? 1)%nat then [M] else [M; r]) /\
    (forall c s, (c < N)%nat -> (s < r)%nat ->
       solves (S w) (nbr_matrix k (gp_noise g) train (with_self q) c) (fun j => coef c j s)
              (fun j => at_ targets [with_self q c j; s])) /\
    (forall x s, (x < M)%nat -> (s < r)%nat -> at_ out (out_idx r x s) =
       rsum (S w) (fun j => kcov k test train x (with_self (with_self q) (p x O) j) * coef (p x O) j s)).
Proof. exact any_value. Qed.
Print Assumptions C46_packaged_workflow_refuted.

(** The wrong pairing changes results: three training points with responses 3, 0, 0, no noise,
    and a test point equal to the first of them: the packaged workflow predicts 2; the kriging
    prediction, which the single-update workflow returns, is 3. *)
Theorem C46_packaged_value_refuted : exists ls, exact_solver ls /\ exists out single,
  fast_posterior_mean_any ls ex_gp exk_nd ex_nn ex_test_nn ex_test ex_train ex_targets = Ok out /\
  at_ out [0%nat] = 2 /\
  manual_fast_workflow ls ex_gp exk_nd ex_nn (fast_nn_update ex_nn) ex_test_nn ex_test ex_train ex_targets = Ok single /\
  at_ single [0%nat] = 3 /\
  kriging 2 (nbr_matrix exk NullNoise ex_train (with_self ex_q) 0)
    (fun j => kcov exk ex_test ex_train 0 (with_self ex_q 0 j))
    (fun j => at_ ex_targets [with_self ex_q 0 j; O]) 3.
Proof. exact flow_refuted. Qed.
Print Assumptions C46_packaged_value_refuted.

(** The workflow written in the docstring of fast_nn_update (update, then
    make_fast_predict_tensors, which updates again) mismatches the other way round ... *)
Theorem C46_docstring_workflow_refuted : forall ls g F kern k nn test_nn test train targets N M w w' q p r,
  exact_solver ls ->
  pointwise_kernel F kern k -> dataset test M -> dataset train N -> ndim test = ndim train ->
  feature_count test = F -> feature_count train = F -> shape targets = [N; r] ->
  index_matrix nn N (S w) N q -> index_matrix test_nn M (S w') N p ->
  N <> 1%nat -> M <> 1%nat -> (S w <> 1)%nat -> noise_fits (gp_noise g) N (S w) ->
  (forall c, (c < N)%nat -> nonsingular (S w) (nbr_matrix k (gp_noise g) train (with_self (with_self q)) c)) ->
  exists out coef, manual_fast_workflow ls g kern (fast_nn_update nn) (fast_nn_update nn) test_nn test train targets = Ok out /\
    shape out = (if (r =? 1)%nat then [M] else [M; r]) /\
    (forall c s, (c < N)%nat -> (s < r)%nat ->
       solves (S w) (nbr_matrix k (gp_noise g) train (with_self (with_self q)) c) (fun j => coef c j s)
              (fun j => at_ targets [with_self (with_self q) c j; s])) /\
    (forall x s, (x < M)%nat -> (s < r)%nat -> at_ out (out_idx r x s) =
       rsum (S w) (fun j => kcov k test train x (with_self q (p x O) j) * coef (p x O) j s)).
Proof. exact doc_value. Qed.
Print Assumptions C46_docstring_workflow_refuted.

(** ... and, without noise, always raises LinAlgError, because a row listed twice makes its
    kernel matrix singular. *)
Theorem C46_docstring_raises_refuted : forall ls g F kern k nn test_nn test train targets N w q r,
  exact_solver ls -> gp_noise g = NullNoise ->
  pointwise_kernel F kern k -> dataset train N -> feature_count train = F -> shape targets = [N; r] ->
  index_matrix nn N (S (S w)) N q -> (0 < N)%nat ->
  manual_fast_workflow ls g kern (fast_nn_update nn) (fast_nn_update nn) test_nn test train targets = Err LinAlgError.
Proof. exact doc_raises. Qed.
Print Assumptions C46_docstring_raises_refuted.

Example C46_sat : exact_solver gauss /\ pointwise_kernel 1 exk_nd exk /\ dataset ex_test 2 /\ dataset ex_train 3 /\
  ndim ex_test = ndim ex_train /\ feature_count ex_test = 1%nat /\ feature_count ex_train = 1%nat /\
  shape ex_targets = [3; 1]%nat /\ index_matrix ex_nn 3 2 3 ex_q /\ index_matrix ex_test_nn 2 2 3 ex_p /\
  (forall i j, kcov exk ex_train ex_train i j = kcov exk ex_train ex_train j i) /\
  (forall c, (c < 3)%nat -> nonsingular 2 (nbr_matrix exk (gp_noise ex_gp) ex_train (with_self ex_q) c)).
Proof.
  repeat split; try (right; exists 1%nat; reflexivity); try reflexivity; try (exact (proj1 gauss_exact));
    try (apply gauss_exact); try apply exk_pointwise; try apply ex_nn_ok; try apply ex_test_nn_ok; auto.
  - intros i j. rewrite !exk_train, (Nat.eqb_sym j i). reflexivity.
  - intros c Hc. apply ex_flow_ns, ex_self_ne; auto.
Qed.

(** With noise the doubly updated neighbourhood is nonsingular, so the hypotheses of
    [C46_docstring_workflow_refuted] can be met too. *)
Example C46_doc_sat : forall c, nonsingular 2 (nbr_matrix exk (HomoscedasticNoise 1) ex_train (with_self (with_self ex_q)) c).
Proof.
  intros c x Hx. pose proof (Hx O ltac:(lia)) as A. pose proof (Hx 1%nat ltac:(lia)) as B.
  unfold nbr_matrix, plus_diag in A, B. cbn [rsum with_self] in A, B. rewrite !exk_train, !Nat.eqb_refl in A, B.
  cbn in A, B. intros j Hj. destruct j as [|[|j]]; [lra|lra|lia].
Qed.

(** * C60 *)
(** Prediction from indices: batch entry x asks for test row c x with neighbours q x 0, q x 1,
    ...; the result is the kriging prediction from exactly those training rows and responses. *)
Theorem C60_posterior_mean_from_indices : forall ls, exact_solver ls ->
  forall g F kern k ix nn test train targets N M t w q c r,
  pointwise_kernel F kern k -> dataset test M -> dataset train N -> ndim test = ndim train ->
  feature_count test = F -> feature_count train = F -> shape targets = [N; r] ->
  shape ix = [t] -> (forall x, (x < t)%nat -> at_ ix [x] = Z.of_nat (c x) /\ (c x < M)%nat) ->
  index_matrix nn t w N q -> r <> w -> noise_fits (gp_noise g) t w ->
  (forall x, (x < t)%nat -> nonsingular w (nbr_matrix k (gp_noise g) train q x)) ->
  exists out, posterior_mean_from_indices ls g kern ix nn test train targets = Ok out /\ shape out = [t; r] /\
    forall x s, (x < t)%nat -> (s < r)%nat ->
      kriging w (nbr_matrix k (gp_noise g) train q x) (fun j => kcov k test train (c x) (q x j))
        (fun j => at_ targets [q x j; s]) (at_ out [x; s]).
Proof. exact from_indices_kriging. Qed.
Print Assumptions C60_posterior_mean_from_indices.

(** The variance is the scaled Schur complement for the same rows. *)
Theorem C60_posterior_variance_from_indices : forall ls g F kern k ix nn test train (targets : nd R) N M t w q c r,
  exact_solver ls ->
  pointwise_kernel F kern k -> dataset test M -> dataset train N -> ndim test = ndim train ->
  feature_count test = F -> feature_count train = F -> shape targets = [N; r] -> shape (gp_Kout g) = [] ->
  shape ix = [t] -> (forall x, (x < t)%nat -> at_ ix [x] = Z.of_nat (c x) /\ (c x < M)%nat) ->
  index_matrix nn t w N q -> noise_fits (gp_noise g) t w ->
  (forall x, (x < t)%nat -> nonsingular w (nbr_matrix k (gp_noise g) train q x)) ->
  exists out, posterior_variance_from_indices ls g kern ix nn test train targets = Ok out /\ shape out = [t] /\
    forall x, (x < t)%nat -> exists wv,
      solves w (nbr_matrix k (gp_noise g) train q x) wv (fun j => kcov k test train (c x) (q x j)) /\
      at_ out [x] = gp_var_scale g *
        (at_ (gp_Kout g) [] - dot w wv (fun j => kcov k test train (c x) (q x j))).
Proof. exact from_indices_variance. Qed.
Print Assumptions C60_posterior_variance_from_indices.

Example C60_sat : pointwise_kernel 1 exk_nd exk /\ dataset ex_test 2 /\ dataset ex_train 3 /\
  ndim ex_test = ndim ex_train /\ shape (gp_Kout ex_gp) = [] /\ shape (arange 2) = [2%nat] /\
  (forall x, (x < 2)%nat -> at_ (arange 2) [x] = Z.of_nat x /\ (x < 2)%nat) /\
  index_matrix ex_test_nn 2 2 3 ex_p /\ noise_fits (gp_noise ex_gp) 2 2 /\ (1 <> 2)%nat /\
  (forall x, (x < 2)%nat -> nonsingular 2 (nbr_matrix exk (gp_noise ex_gp) ex_train ex_p x)).
Proof.
  repeat split; try (right; exists 1%nat; reflexivity); try reflexivity; try apply exk_pointwise;
    try apply ex_test_nn_ok; auto; try lia.
  intros x Hx. apply ex_flow_ns. destruct x as [|[|x]]; cbn; lia.
Qed.
