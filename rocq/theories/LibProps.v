(** Property theorems C63 (predictions with the library kernels), C64 (Matern Gram matrices) and C65 (distinct points). *)
From Coq Require Import Lia Lra.
From Verif Require Import Base NdModel NdFacts RSum HyperModel NamedModel NamedSpec TensorModel TensorSpec TensorProofs
  KernelModel KernelSpec KernelProofs KernelLemmas KernelPd LinAlgModel LinAlgSpec LinAlgFacts GPModel NoiseModel MuyGPSModel GPSpec
  Gauss KernelCases FlowModel FlowSpec FlowProofs FlowLemmas PointwiseSpec LibSpec LibProofs.
Local Open Scope R_scope.

(** * C63 *)
(** With an RBF or closed-form Matern kernel (isotropic or anisotropic), positive noise, or nonnegative noise and distinct neighbours:
    prediction from indices always succeeds, and is kriging under the documented covariance. *)
Theorem C63_mean_total : forall gamma kv ls, exact_solver ls ->
  forall g K cur kw ix nn test train targets N M t w q c r,
  lk_ok K (feature_count train) cur kw -> dataset test M -> dataset train N -> ndim test = ndim train ->
  feature_count test = feature_count train -> shape targets = [N; r] ->
  shape ix = [t] -> (forall x, (x < t)%nat -> at_ ix [x] = Z.of_nat (c x) /\ (c x < M)%nat) ->
  index_matrix nn t w N q -> r <> w -> noise_fits (gp_noise g) t w -> well_posed (gp_noise g) train t w q ->
  exists out, posterior_mean_from_indices ls g (lk_call gamma kv K cur kw) ix nn test train targets = Ok out /\ shape out = [t; r] /\
    forall x s, (x < t)%nat -> (s < r)%nat ->
      kriging w (nbr_matrix (lk_cov gamma kv K (feature_count train) cur kw) (gp_noise g) train q x)
        (fun j => kcov (lk_cov gamma kv K (feature_count train) cur kw) test train (c x) (q x j))
        (fun j => at_ targets [q x j; s]) (at_ out [x; s]).
Proof. exact lib_mean. Qed.
Print Assumptions C63_mean_total.

(** The variance likewise, and it lies between 0 and the variance scale. *)
Theorem C63_variance_total_and_bounded : forall gamma kv ls, exact_solver ls ->
  forall g K cur kw ix nn test train (targets : nd R) N M t w q c r,
  lk_ok K (feature_count train) cur kw -> dataset test M -> dataset train N -> ndim test = ndim train ->
  feature_count test = feature_count train -> shape targets = [N; r] ->
  shape (gp_Kout g) = [] -> at_ (gp_Kout g) [] = 1 -> 0 <= gp_var_scale g ->
  shape ix = [t] -> (forall x, (x < t)%nat -> at_ ix [x] = Z.of_nat (c x) /\ (c x < M)%nat) ->
  index_matrix nn t w N q -> noise_fits (gp_noise g) t w -> well_posed (gp_noise g) train t w q ->
  exists out, posterior_variance_from_indices ls g (lk_call gamma kv K cur kw) ix nn test train targets = Ok out /\ shape out = [t] /\
    forall x, (x < t)%nat -> (exists wv,
      solves w (nbr_matrix (lk_cov gamma kv K (feature_count train) cur kw) (gp_noise g) train q x) wv
        (fun j => kcov (lk_cov gamma kv K (feature_count train) cur kw) test train (c x) (q x j)) /\
      at_ out [x] = gp_var_scale g *
        (1 - dot w wv (fun j => kcov (lk_cov gamma kv K (feature_count train) cur kw) test train (c x) (q x j)))) /\
      0 <= at_ out [x] <= gp_var_scale g.
Proof. exact lib_variance. Qed.
Print Assumptions C63_variance_total_and_bounded.

(** The fast workflow with a single update of the neighbour matrix. *)
Theorem C63_fast_workflow_total : forall gamma kv ls, exact_solver ls ->
  forall g K cur kw nn test_nn test train targets N M w w' q p r,
  lk_ok K (feature_count train) cur kw -> dataset test M -> dataset train N -> ndim test = ndim train ->
  feature_count test = feature_count train -> shape targets = [N; r] ->
  index_matrix nn N (S w) N q -> index_matrix test_nn M (S w') N p ->
  N <> 1%nat -> M <> 1%nat -> (S w <> 1)%nat -> noise_fits (gp_noise g) N (S w) ->
  well_posed (gp_noise g) train N (S w) (with_self q) ->
  exists out, manual_fast_workflow ls g (lk_call gamma kv K cur kw) nn (fast_nn_update nn) test_nn test train targets = Ok out /\
    shape out = (if (r =? 1)%nat then [M] else [M; r]) /\
    forall x s, (x < M)%nat -> (s < r)%nat ->
      kriging (S w) (nbr_matrix (lk_cov gamma kv K (feature_count train) cur kw) (gp_noise g) train (with_self q) (p x O))
        (fun j => kcov (lk_cov gamma kv K (feature_count train) cur kw) test train x (with_self q (p x O) j))
        (fun j => at_ targets [with_self q (p x O) j; s]) (at_ out (out_idx r x s)).
Proof.
  intros gamma kv ls EX g K cur kw nn test_nn test train targets N M w w' q p r OK D1 D2 ND FC ST NN TN N1 M1 W1 NF WP.
  apply (manual_kriging ls EX g (feature_count train) (lk_call gamma kv K cur kw) (lk_cov gamma kv K (feature_count train) cur kw)
           nn test_nn test train targets N M w w' q p r); auto.
  - apply lk_pointwise; auto.
  - intros; apply lk_cov_sym.
  - apply (well_posed_ns gamma kv K cur kw (gp_noise g) train N (S w) (with_self q) OK WP).
Qed.
Print Assumptions C63_fast_workflow_total.

(** * C64 *)
(** Matern kernel matrices with smoothness 1/2, 3/2, 5/2 or infinity are symmetric positive semidefinite with unit diagonal, for
    every point set, dimension and positive length scales. *)
Theorem C64_matern_gram : forall gamma kv d sm p data nix n b k cur kw,
  dataset data n -> shape nix = [b; k]%nat ->
  (forall x i, (x < b)%nat -> (i < k)%nat -> ~ out_of_range n (at_ nix [x; i])) ->
  deformation_ok d (feature_count data) kw -> (0 < feature_count data)%nat ->
  positive_scales d (feature_count data) cur kw -> metric_of d = L2 ->
  nm_name sm = "smoothness"%string -> formula_for p <> General ->
  exists D K, deform_pairwise d data nix = Ok D /\
    matern_call gamma kv d sm (set_matern_fn p) cur D kw = Ok K /\ shape K = [b; k; k]%nat /\
    forall x, (x < b)%nat ->
      symmetric k (rowmat K x) /\ psd k (rowmat K x) /\ forall i, (i < k)%nat -> rowmat K x i i = 1.
Proof.
  intros gamma kv d sm p data nix n b k cur kw Hd Sn Hr OK HF POS M Hsm NG.
  destruct (matern_gram gamma kv d sm p data nix n b k cur kw Hd Sn Hr OK HF POS M Hsm NG) as (D & K & E1 & E2 & S & P).
  exists D, K. repeat (split; [assumption|]). intros x Hx. destruct (P x Hx) as (A & B & C & _). auto.
Qed.
Print Assumptions C64_matern_gram.

Theorem C64_matern_joint : forall gamma kv d sm p test train ix nix n n' b k cur kw,
  dataset test n -> dataset train n' -> ndim test = ndim train ->
  feature_count test = feature_count train ->
  shape ix = [b] -> shape nix = [b; k]%nat ->
  (forall x, (x < b)%nat -> ~ out_of_range n (at_ ix [x])) ->
  (forall x i, (x < b)%nat -> (i < k)%nat -> ~ out_of_range n' (at_ nix [x; i])) ->
  deformation_ok d (feature_count test) kw -> (0 < feature_count test)%nat ->
  positive_scales d (feature_count test) cur kw -> metric_of d = L2 ->
  nm_name sm = "smoothness"%string -> formula_for p <> General ->
  exists Dc Dp Kcross Kin,
    deform_crosswise d test train ix nix = Ok Dc /\ deform_pairwise d train nix = Ok Dp /\
    matern_call gamma kv d sm (set_matern_fn p) cur Dc kw = Ok Kcross /\ matern_call gamma kv d sm (set_matern_fn p) cur Dp kw = Ok Kin /\
    shape Kcross = [b; k]%nat /\ shape Kin = [b; k; k]%nat /\
    forall x, (x < b)%nat ->
      symmetric k (rowmat Kin x) /\ psd k (rowmat Kin x) /\
      psd (S k) (joint 1 (rowvec Kcross x) (rowmat Kin x)).
Proof. exact matern_joint. Qed.
Print Assumptions C64_matern_joint.

(** The general formula (optimizable smoothness) replaces a zero distance by 2^-52.  Closer points then have a larger covariance
    than their own variances: two points at distance 2^-53 with smoothness 1/2 give a matrix that is not positive semidefinite. *)
Definition ex64_data : nd R := mkNd [2; 1]%nat (fun idx => INR (hd O idx) / 2 ^ 53).
Definition ex64_nn : nd Z := mkNd [1; 2]%nat (fun idx => match idx with [_; j] => Z.of_nat j | _ => 0%Z end).
Definition ex64_d : deformation := Iso L2 (mkNamed "length_scale" 0).
Definition ex64_cur (i : nat) : R := if (i =? 1)%nat then 1 / 2 else 1.
Definition ex64_p : param := mkParam (Fin (1 / 2)) (Fin (1 / 10), Fin 5) false.
Theorem C64_general_smoothness_refuted : forall gamma kv, half_integer_facts gamma kv ->
  exists D K, deform_pairwise ex64_d ex64_data ex64_nn = Ok D /\
    matern_call gamma kv ex64_d (mkNamed "smoothness" 1) (set_matern_fn ex64_p) ex64_cur D [] = Ok K /\
    at_ K [0; 0; 0]%nat < at_ K [0; 0; 1]%nat /\ ~ psd 2 (rowmat K 0).
Proof.
  intros gamma kv HF.
  assert (DS : dataset ex64_data 2) by (right; exists 1%nat; reflexivity).
  assert (RG : forall x i, (x < 1)%nat -> (i < 2)%nat -> ~ out_of_range 2 (at_ ex64_nn [x; i])).
  { intros x i _ Hi. unfold out_of_range, ex64_nn. cbn [at_]. lia. }
  assert (POS : positive_scales ex64_d (feature_count ex64_data) ex64_cur []) by (intros f _; cbn; lra).
  destruct (matern_pairwise gamma kv ex64_d (mkNamed "smoothness" 1) ex64_p ex64_data ex64_nn 2 1 2 ex64_cur [] DS eq_refl RG eq_refl
              (Nat.lt_0_1) POS eq_refl) as (D & K & ED & EK & SK & AK).
  exists D, K. split; [exact ED|]. split; [exact EK|].
  assert (SEL : forall i, (i < 2)%nat -> selects 2 (at_ ex64_nn [0%nat; i]) i) by (intros i Hi; split; [exact Hi|left; reflexivity]).
  assert (V : forall i j, (i < 2)%nat -> (j < 2)%nat -> at_ K [0%nat; i; j] =
     matern_value gamma kv General (1 / 2) (sqrt ((INR i / 2 ^ 53 - INR j / 2 ^ 53) ^ 2))).
  { intros i j Hi Hj. rewrite (AK 0%nat i j i j) by (auto; lia). unfold formula_for, ex64_p. cbn [p_fixed].
    f_equal. unfold deformed, ex64_d. cbn [metric_of]. f_equal. unfold scaled_sqdist.
    assert (FC : feature_count ex64_data = 1%nat) by reflexivity. rewrite FC. cbn [rsum].
    assert (SC : scale_of (Iso L2 (mkNamed "length_scale" 0)) ex64_cur [] 0 = 1) by reflexivity. rewrite SC.
    unfold feature, ex64_data. cbn [shape at_ hd]. field. }
  assert (P52 : 0 < / 2 ^ 52) by (apply Rinv_0_lt_compat, pow_lt; lra).
  assert (P53 : 0 < / 2 ^ 53) by (apply Rinv_0_lt_compat, pow_lt; lra).
  assert (H53 : / 2 ^ 53 = / 2 ^ 52 / 2).
  { replace (2 ^ 53) with (2 ^ 52 * 2) by (cbn [pow]; ring). field. }
  assert (DG : forall i, (i < 2)%nat -> at_ K [0%nat; i; i] = exp (- / 2 ^ 52)).
  { intros i Hi. rewrite V by auto. replace ((INR i / 2 ^ 53 - INR i / 2 ^ 53) ^ 2) with 0 by ring. rewrite sqrt_0. cbn [matern_value].
    destruct (Req_EM_T 0 0) as [_|X]; [|lra]. rewrite bessel_half by auto. reflexivity. }
  assert (OD : forall i j, (i < 2)%nat -> (j < 2)%nat -> i <> j -> at_ K [0%nat; i; j] = exp (- / 2 ^ 53)).
  { intros i j Hi Hj Hij. rewrite V by auto.
    assert (E : sqrt ((INR i / 2 ^ 53 - INR j / 2 ^ 53) ^ 2) = / 2 ^ 53).
    { replace ((INR i / 2 ^ 53 - INR j / 2 ^ 53) ^ 2) with ((/ 2 ^ 53) ^ 2).
      - apply sqrt_pow2. lra.
      - destruct i as [|[|i]]; [| |lia]; (destruct j as [|[|j]]; [| |lia]); try lia; cbn [INR]; unfold Rdiv; ring. }
    rewrite E. cbn [matern_value]. destruct (Req_EM_T (/ 2 ^ 53) 0) as [X|_]; [lra|]. rewrite bessel_half by auto. reflexivity. }
  assert (LT : exp (- / 2 ^ 52) < exp (- / 2 ^ 53)) by (apply exp_increasing; lra).
  split; [rewrite DG, OD by (lia || discriminate); exact LT|].
  intros P. specialize (P (fun i => if (i =? 0)%nat then 1 else -1)). unfold quad, rowmat in P. cbn [rsum Nat.eqb] in P.
  rewrite (DG 0%nat), (DG 1%nat), (OD 0%nat 1%nat), (OD 1%nat 0%nat) in P by (lia || discriminate). lra.
Qed.
Print Assumptions C64_general_smoothness_refuted.

Example C64_sat : exists gamma kv, half_integer_facts gamma kv.
Proof. destruct KernelCases.ex_c27 as (s & l & sm & _ & _ & _ & _ & _ & H). exact H. Qed.

(** * C65 *)
(** Kernel matrices of pairwise distinct neighbours are positive definite, hence invertible even without noise. *)
Theorem C65_rbf_gram_pd : forall d data nix n b k cur kw,
  dataset data n -> shape nix = [b; k]%nat ->
  (forall x i, (x < b)%nat -> (i < k)%nat -> ~ out_of_range n (at_ nix [x; i])) ->
  (forall x, (x < b)%nat -> distinct_neighbors data n nix k x) ->
  deformation_ok d (feature_count data) kw -> (0 < feature_count data)%nat ->
  positive_scales d (feature_count data) cur kw -> metric_of d = F2 ->
  exists D K, deform_pairwise d data nix = Ok D /\ rbf_call d cur D kw = Ok K /\ shape K = [b; k; k]%nat /\
    forall x, (x < b)%nat -> symmetric k (rowmat K x) /\ pd k (rowmat K x).
Proof. exact rbf_gram_pd. Qed.
Print Assumptions C65_rbf_gram_pd.

Theorem C65_matern_gram_pd : forall gamma kv d sm p data nix n b k cur kw,
  dataset data n -> shape nix = [b; k]%nat ->
  (forall x i, (x < b)%nat -> (i < k)%nat -> ~ out_of_range n (at_ nix [x; i])) ->
  (forall x, (x < b)%nat -> distinct_neighbors data n nix k x) ->
  deformation_ok d (feature_count data) kw -> (0 < feature_count data)%nat ->
  positive_scales d (feature_count data) cur kw -> metric_of d = L2 ->
  nm_name sm = "smoothness"%string -> formula_for p <> General ->
  exists D K, deform_pairwise d data nix = Ok D /\
    matern_call gamma kv d sm (set_matern_fn p) cur D kw = Ok K /\ shape K = [b; k; k]%nat /\
    forall x, (x < b)%nat -> symmetric k (rowmat K x) /\ pd k (rowmat K x).
Proof.
  intros gamma kv d sm p data nix n b k cur kw Hd Sn Hr DI OK HF POS M Hsm NG.
  destruct (matern_gram gamma kv d sm p data nix n b k cur kw Hd Sn Hr OK HF POS M Hsm NG) as (D & K & E1 & E2 & S & P).
  exists D, K. repeat (split; [assumption|]). intros x Hx. destruct (P x Hx) as (A & _ & _ & C). auto.
Qed.
Print Assumptions C65_matern_gram_pd.

(** A noise-free model on distinct neighbours always predicts, and reproduces the responses exactly at a test point that coincides
    with one of its neighbours. *)
Theorem C65_noise_free_interpolation : forall gamma kv ls, exact_solver ls ->
  forall g K cur kw ix nn test train targets N M t w q c r,
  lk_ok K (feature_count train) cur kw -> dataset test M -> dataset train N -> ndim test = ndim train ->
  feature_count test = feature_count train -> shape targets = [N; r] ->
  shape ix = [t] -> (forall x, (x < t)%nat -> at_ ix [x] = Z.of_nat (c x) /\ (c x < M)%nat) ->
  index_matrix nn t w N q -> r <> w -> gp_noise g = NullNoise ->
  (forall x, (x < t)%nat -> distinct_rows train w (q x)) ->
  exists out, posterior_mean_from_indices ls g (lk_call gamma kv K cur kw) ix nn test train targets = Ok out /\ shape out = [t; r] /\
    forall x s j, (x < t)%nat -> (s < r)%nat -> (j < w)%nat ->
      (forall f, (f < feature_count train)%nat -> feature test (c x) f = feature train (q x j) f) ->
      at_ out [x; s] = at_ targets [q x j; s].
Proof. exact lib_interpolates. Qed.
Print Assumptions C65_noise_free_interpolation.

(** The hypotheses of C63 and C65 hold for three training points 0, 1, 2 and test points 0, 1, both kernels. *)
Definition ex63_rbf : libkernel := LRbf (Iso F2 (mkNamed "length_scale" 0)).
Definition ex63_matern : libkernel := LMatern (Iso L2 (mkNamed "length_scale" 0)) (mkNamed "smoothness" 1) (mkParam (Fin (3 / 2)) (Fin 0, Fin 0) true).
Example C63_sat : lk_ok ex63_rbf (feature_count ex_train) (fun _ => 1) [] /\ lk_ok ex63_matern (feature_count ex_train) (fun _ => 1) [] /\
  dataset ex_test 2 /\ dataset ex_train 3 /\ ndim ex_test = ndim ex_train /\ feature_count ex_test = feature_count ex_train /\
  shape ex_targets = [3; 1]%nat /\ (forall x, (x < 2)%nat -> at_ (arange 2) [x] = Z.of_nat x /\ (x < 2)%nat) /\
  index_matrix ex_test_nn 2 2 3 ex_p /\ (1 <> 2)%nat /\ noise_fits NullNoise 2 2 /\
  (forall x, (x < 2)%nat -> distinct_rows ex_train 2 (ex_p x)) /\ well_posed NullNoise ex_train 2 2 ex_p /\
  (forall x, (x < 2)%nat -> forall f, (f < 1)%nat -> feature ex_test x f = feature ex_train (ex_p x 0) f).
Proof.
  assert (DR : forall x, (x < 2)%nat -> distinct_rows ex_train 2 (ex_p x)).
  { intros x Hx i j Hi Hj Hij. exists O. split; [apply Nat.lt_0_1|].
    destruct x as [|[|x]]; [| |lia]; (destruct i as [|[|i]]; [| |lia]); (destruct j as [|[|j]]; [| |lia]); try lia;
      unfold feature, ex_train; cbn; lra. }
  assert (POS : forall d, scale_of d (fun _ => 1) [] = (fun _ => 1) -> positive_scales d (feature_count ex_train) (fun _ => 1) []).
  { intros d E f _. rewrite E. lra. }
  split; [|split; [|split; [|split; [|split; [|split; [|split; [|split; [|split; [|split; [|split; [|split; [|split]]]]]]]]]]]].
  - split; [reflexivity|]. split; [apply Nat.lt_0_1|]. split; [apply POS; reflexivity|reflexivity].
  - split; [reflexivity|]. split; [apply Nat.lt_0_1|]. split; [apply POS; reflexivity|]. split; [reflexivity|]. split; [reflexivity|].
    unfold formula_for. cbn [p_fixed p_val]. destruct (Req_EM_T (3 / 2) (1 / 2)) as [X|_]; [lra|].
    destruct (Req_EM_T (3 / 2) (3 / 2)) as [_|X]; [discriminate|lra].
  - right; exists 1%nat; reflexivity.
  - right; exists 1%nat; reflexivity.
  - reflexivity.
  - reflexivity.
  - reflexivity.
  - intros x Hx. split; [reflexivity|exact Hx].
  - apply ex_test_nn_ok.
  - discriminate.
  - exact I.
  - exact DR.
  - intros x Hx. right. split; [intros; cbn; lra|auto].
  - intros x Hx f Hf. assert (f = O) by lia. subst f. destruct x as [|[|x]]; [| |lia]; reflexivity.
Qed.
