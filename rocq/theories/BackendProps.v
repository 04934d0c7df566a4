(** Property theorems C66-C70: the jax and torch backends against the numpy one.
    [same_outcome] (CongProofs): both calls return arrays with equal shapes and entries, or both raise the same exception. *)
From Coq Require Import Lia Lra.
From Verif Require Import Base NdModel NdFacts RSum LinAlgModel LinAlgSpec LinAlgFacts GPModel GPSpec GPProofs NoiseModel
  TensorModel TensorSpec TensorProofs TensorLemmas KernelModel NamedModel LossModel LossSpec ShearModel CongProofs Gauss GPExamples
  WellPosedProofs MuyGPSProofs BackendModel BackendProofs BackendProofs2.
Local Open Scope R_scope.

(** * C66: difference tensors *)
Theorem C66_torch_crosswise : forall data nn_data ix nn, ndim data = 2%nat -> ndim ix = 1%nat ->
  to_crosswise_tensor data nn_data ix nn = crosswise_tensor data nn_data ix nn.
Proof. exact to_crosswise_eq. Qed.
Print Assumptions C66_torch_crosswise.

Theorem C66_torch_pairwise : forall data nn, ndim data = 2%nat -> (ndim nn = 1 \/ ndim nn = 2)%nat ->
  to_pairwise_tensor data nn = pairwise_tensor data nn.
Proof. exact to_pairwise_eq. Qed.
Print Assumptions C66_torch_pairwise.

Theorem C66_jax_crosswise : forall data nn_data ix nn n f n' f', shape data = [n; f] -> shape nn_data = [n'; f'] ->
  (0 < n)%nat -> (0 < n')%nat -> ndim ix = 1%nat ->
  (forall idx, inb (shape ix) idx -> ~ out_of_range n (at_ ix idx)) ->
  (forall idx, inb (shape nn) idx -> ~ out_of_range n' (at_ nn idx)) ->
  same_outcome (jx_crosswise_tensor data nn_data ix nn) (crosswise_tensor data nn_data ix nn).
Proof. exact jx_crosswise_agree. Qed.
Print Assumptions C66_jax_crosswise.

Theorem C66_jax_pairwise : forall data nn n f, shape data = [n; f] -> (0 < n)%nat -> (ndim nn = 1 \/ ndim nn = 2)%nat ->
  (forall idx, inb (shape nn) idx -> ~ out_of_range n (at_ nn idx)) ->
  same_outcome (jx_pairwise_tensor data nn) (pairwise_tensor data nn).
Proof. exact jx_pairwise_agree. Qed.
Print Assumptions C66_jax_pairwise.

(** An index outside the data raises IndexError in numpy and torch; jax reads the first or last row instead. *)
Theorem C66_jax_out_of_range_refuted : forall (data : nd R) ix n rest, shape data = n :: rest -> (0 < n)%nat ->
  exists t, jx_take data ix = Ok t /\ shape t = shape ix ++ rest /\
    forall i idx, inb (shape ix) i ->
      ((at_ ix i < - Z.of_nat n)%Z -> take data ix = Err IndexError /\ at_ t (i ++ idx) = at_ data (O :: idx)) /\
      ((Z.of_nat n <= at_ ix i)%Z -> take data ix = Err IndexError /\ at_ t (i ++ idx) = at_ data ((n - 1)%nat :: idx)).
Proof.
  intros data ix n rest S Hn. destruct (jx_take_total data ix n rest S Hn) as (t & Et & St & H).
  exists t. split; [exact Et|]. split; [exact St|]. intros i idx Hi. destruct (H i idx Hi) as [H1 H2].
  split; intros Hr; (split; [apply (take_err data ix n rest i); auto; unfold out_of_range; lia|auto]).
Qed.
Print Assumptions C66_jax_out_of_range_refuted.

(** One-axis features: numpy gives (b, k, 1) and (b, k, k, 1) tensors; jax and torch raise for the former and silently return a
    (b, b, k) array of differences between *batch elements* for the latter. *)
Theorem C66_one_axis_features_refuted : forall data nn_data ix nn n n' b k, shape data = [n] -> shape nn_data = [n'] ->
  (0 < n)%nat -> (0 < n')%nat -> shape ix = [b] -> shape nn = [b; k] ->
  (forall x, (x < b)%nat -> ~ out_of_range n (at_ ix [x])) ->
  (forall x i, (x < b)%nat -> (i < k)%nat -> ~ out_of_range n' (at_ nn [x; i])) ->
  (exists c p, crosswise_tensor data nn_data ix nn = Ok c /\ shape c = [b; k; 1%nat] /\
               pairwise_tensor nn_data nn = Ok p /\ shape p = [b; k; k; 1%nat]) /\
  jx_crosswise_tensor data nn_data ix nn = Err IndexError /\
  to_crosswise_tensor data nn_data ix nn = Err IndexError /\
  (exists t t', jx_pairwise_tensor nn_data nn = Ok t /\ shape t = [b; b; k] /\
                to_pairwise_tensor nn_data nn = Ok t' /\ shape t' = [b; b; k]).
Proof.
  intros data nn_data ix nn n n' b k Sd Sn Hn Hn' Si Snn Hi Hnn.
  assert (Hi' : forall idx, inb (shape ix) idx -> ~ out_of_range n (at_ ix idx)).
  { intros idx H. rewrite Si in H. apply inb_inv1 in H as (x & -> & Hx). auto. }
  assert (Hnn' : forall idx, inb (shape nn) idx -> ~ out_of_range n' (at_ nn idx)).
  { intros idx H. rewrite Snn in H. apply inb_inv2 in H as (x & i & -> & Hx & Hii). auto. }
  assert (Hix : ndim ix = 1%nat) by (unfold ndim; rewrite Si; reflexivity).
  split; [|split; [|split]].
  - destruct (crosswise_spec data nn_data ix nn n n' b k) as (c & Ec & Sc & _); auto; try (left; assumption).
    + unfold ndim. rewrite Sd, Sn. reflexivity.
    + unfold feature_count. rewrite Sd, Sn. reflexivity.
    + destruct (pairwise_spec nn_data nn n' b k) as (p & Ep & Sp & _); auto; try (left; assumption).
      exists c, p. unfold feature_count in *. rewrite Sd in Sc. rewrite Sn in Sp. auto.
  - eapply jx_crosswise_1d; eauto.
  - destruct (take_ok data ix n [] Sd Hi') as (l & El & _). destruct (take_ok nn_data nn n' [] Sn Hnn') as (p & Ep & _).
    eapply bk_crosswise_1d; eauto.
  - destruct (jx_pairwise_1d nn_data nn n' b k Sn Snn Hn') as (t & Et & St).
    destruct (to_pairwise_1d nn_data nn n' b k Sn Snn Hnn') as (t' & Et' & St'). eauto 8.
Qed.
Print Assumptions C66_one_axis_features_refuted.

Definition ex_ix : nd Z := mkNd [2%nat] (fun idx => match idx with [O] => 1%Z | _ => (-1)%Z end).
Lemma ex_nix_all idx : inb (shape ex_nix) idx -> ~ out_of_range 4 (at_ ex_nix idx).
Proof. intros H. apply inb_inv2 in H as (x & i & -> & Hx & Hi). apply ex_nix_range; auto. Qed.
Lemma ex_ix_all idx : inb (shape ex_ix) idx -> ~ out_of_range 4 (at_ ex_ix idx).
Proof. intros H. apply inb_inv1 in H as (x & -> & Hx). destruct x as [|x]; cbn; unfold out_of_range; lia. Qed.
Example C66_sat : exists t t', jx_crosswise_tensor ex_data ex_data ex_ix ex_nix = Ok t /\
  crosswise_tensor ex_data ex_data ex_ix ex_nix = Ok t' /\ nd_eq t t'.
Proof.
  pose proof (C66_jax_crosswise ex_data ex_data ex_ix ex_nix 4 2 4 2 eq_refl eq_refl ltac:(lia) ltac:(lia) eq_refl ex_ix_all ex_nix_all) as H.
  destruct (crosswise_spec ex_data ex_data ex_ix ex_nix 4 4 2 2) as (c & Ec & Sc & _); auto; try (right; exists 2%nat; reflexivity).
  - intros x Hx. apply (ex_ix_all [x]). apply inb1; auto.
  - intros x i Hx Hi. apply (ex_nix_all [x; i]). apply inb2; auto.
  - rewrite Ec in *. destruct (jx_crosswise_tensor ex_data ex_data ex_ix ex_nix); [|contradiction]. eauto.
Qed.

(** * C67: kernels *)
Theorem C67_torch_kernels_partial : forall gamma kv c x kw, c <> MGen ->
  to_matern_backend c x = matern_backend gamma kv c x kw.
Proof. exact to_kernels. Qed.
Print Assumptions C67_torch_kernels_partial.

Theorem C67_torch_general_refuted : forall x, to_matern_backend MGen x = Err NotImplementedError.
Proof. reflexivity. Qed.
Print Assumptions C67_torch_general_refuted.

(** jax's general Matern equals numpy's at positive distances.  kve is the exponentially scaled Bessel function. *)
Theorem C67_jax_general_partial : forall gamma kv kve nu x, 0 < nu -> 0 < x -> 0 < gamma nu ->
  (forall z, 0 < z -> kve nu z = kv nu z * exp z) ->
  jx_gen_entry gamma kve nu x = Fin (gen_entry gamma kv nu x).
Proof. exact jx_gen_positive. Qed.
Print Assumptions C67_jax_general_partial.

(** A kernel matrix of distinct points: numpy's entries away from the diagonal, exactly one on it (numpy evaluates the formula at
    2^-52 there). *)
Theorem C67_jax_gram_partial : forall gamma kv kve nu dists b k, shape dists = [b; k; k] -> 0 < nu -> 0 < gamma nu ->
  (forall z, 0 < z -> kve nu z = kv nu z * exp z) ->
  (forall x i, (x < b)%nat -> (i < k)%nat -> at_ dists [x; i; i] = 0) ->
  (forall x i j, (x < b)%nat -> (i < k)%nat -> (j < k)%nat -> i <> j -> 0 < at_ dists [x; i; j]) ->
  exists t, jx_matern_gen gamma kve dists nu = Ok t /\ shape t = [b; k; k] /\
    forall x i j, (x < b)%nat -> (i < k)%nat -> (j < k)%nat ->
      at_ t [x; i; j] = if (i =? j)%nat then Fin 1 else Fin (gen_entry gamma kv nu (at_ dists [x; i; j])).
Proof. exact jx_gen_gram. Qed.
Print Assumptions C67_jax_gram_partial.

(** Cross-covariances with points at positive distance are numpy's. *)
Theorem C67_jax_cross_partial : forall gamma kv kve nu dists b k, shape dists = [b; k] -> 0 < nu -> 0 < gamma nu ->
  (forall z, 0 < z -> kve nu z = kv nu z * exp z) ->
  (forall x i, (x < b)%nat -> (i < k)%nat -> 0 < at_ dists [x; i]) ->
  exists t, jx_matern_gen gamma kve dists nu = Ok t /\ shape t = [b; k] /\
    forall x i, (x < b)%nat -> (i < k)%nat -> at_ t [x; i] = Fin (gen_entry gamma kv nu (at_ dists [x; i])).
Proof. exact jx_gen_cross. Qed.
Print Assumptions C67_jax_cross_partial.

(** A test point that coincides with a neighbour: jax's cross-covariance is nan, numpy's is a number. *)
Theorem C67_jax_zero_distance_refuted : forall gamma kve nu dists b k, shape dists = [b; k] ->
  forall x i, (x < b)%nat -> (i < k)%nat -> at_ dists [x; i] = 0 ->
  exists t, jx_matern_gen gamma kve dists nu = Ok t /\ at_ t [x; i] = NaN.
Proof. exact jx_gen_cross_zero. Qed.
Print Assumptions C67_jax_zero_distance_refuted.

Theorem C67_shear : forall l diffs t, bk_shear_33_fn l diffs = Ok t ->
  shear_33_fn l diffs = Ok (squeeze t) /\
  ((forall d, In d (shape t) -> d <> 1%nat) -> exists t', shear_33_fn l diffs = Ok t' /\ nd_eq t' t).
Proof. intros l diffs t E. split; [apply bk_shear33; exact E|apply bk_shear33_same; exact E]. Qed.
Print Assumptions C67_shear.

(** The Bessel hypothesis is met by kve := kv * exp; and here is a shear tensor. *)
Example C67_sat : (forall kv : R -> R -> R, exists kve, forall nu z, 0 < z -> kve nu z = kv nu z * exp z) /\
  exists t, bk_shear_33_fn 1 (mkNd [2; 2; 2]%nat (fun _ => 1)) = Ok t /\ shape t = [3; 2; 3; 2]%nat.
Proof. split; [intros kv; exists (fun nu z => kv nu z * exp z); auto|]. eexists. split; reflexivity. Qed.

(** * C68: predictions (torch's text is numpy's: C68_torch says what it computes; jax is compared with numpy) *)
Theorem C68_jax_mean : forall ls, exact_solver ls -> forall Kin Kcross T b n,
  shape Kin = [b; n; n] -> shape Kcross = [b; n] -> shape T = [b; n] \/ (exists r, shape T = [b; n; r] /\ r <> n) ->
  same_outcome (jx_posterior_mean ls Kin Kcross T) (posterior_mean ls Kin Kcross T).
Proof.
  intros ls Hls Kin Kcross T b n SK SC [ST|(r & ST & Hr)];
  [exact (jx_mean_flat_agree ls Hls Kin Kcross T b n SK SC ST)|exact (jx_mean_resp_agree ls Hls Kin Kcross T b n r SK SC ST Hr)].
Qed.
Print Assumptions C68_jax_mean.

(** jax predicts for every response count, also for nn_count of them, where numpy and torch raise (C18). *)
Theorem C68_jax_every_response_count : forall ls, exact_solver ls -> forall Kin Kcross T b n r,
  shape Kin = [b; n; n] -> shape Kcross = [b; n] -> shape T = [b; n; r] ->
  (forall x, (x < b)%nat -> nonsingular n (rowmat Kin x)) ->
  exists t, jx_posterior_mean ls Kin Kcross T = Ok t /\ shape t = [b; r] /\
    forall x s, (x < b)%nat -> (s < r)%nat ->
      kriging n (rowmat Kin x) (rowvec Kcross x) (fun j => at_ T [x; j; s]) (at_ t [x; s]).
Proof. exact jx_mean_resp_spec. Qed.
Print Assumptions C68_jax_every_response_count.

Theorem C68_jax_variance : forall ls, exact_solver ls -> forall Kin Kcross Kout b n,
  shape Kin = [b; n; n] -> shape Kcross = [b; n] ->
  same_outcome (jx_diagonal_variance ls Kin Kcross Kout) (diagonal_variance ls Kin Kcross Kout 1).
Proof. exact jx_variance_agree. Qed.
Print Assumptions C68_jax_variance.

Theorem C68_jax_variance_multivariate : forall ls Kin Kcross Kout b m n o,
  shape Kin = [b; m; n; m; n] -> shape Kcross = [b; m; n; o] ->
  jx_diagonal_variance ls Kin Kcross Kout = diagonal_variance ls Kin Kcross Kout 1.
Proof. exact jx_variance5_agree. Qed.
Print Assumptions C68_jax_variance_multivariate.

(** Shear-style (five-axis) means raise in jax for every batch size but one, although numpy predicts. *)
Theorem C68_jax_multivariate_mean_refuted : forall ls, exact_solver ls -> forall Kin Kcross T b m n o,
  shape Kin = [b; m; n; m; n] -> shape Kcross = [b; m; n; o] -> shape T = [b; m; n] ->
  (forall x, (x < b)%nat -> nonsingular (m * n) (flat5 Kin n x)) -> b <> (m * n)%nat -> (0 < n)%nat ->
  jx_posterior_mean ls Kin Kcross T = Err TypeError /\ exists t, posterior_mean ls Kin Kcross T = Ok t.
Proof.
  intros ls Hls Kin Kcross T b m n o SK SC ST Hns Hb Hn.
  split; [exact (jx_mean5_raises ls Hls Kin Kcross T b m n o SK SC ST Hns Hb Hn)|].
  apply (posterior_mean_total ls Hls Kin Kcross T [b] [m; n] [o] []); auto; [discriminate|split; cbn; [lia|intros; lia]|].
  intros x Hx. apply inb_inv1 in Hx as (x0 & -> & Hx). rewrite nprod2.
  apply (proj1 (nonsingular_cong (m * n) (flat5 Kin n x0) (Kmat Kin [m; n] [x0])
    ltac:(intros i j Hi Hj; unfold flat5, Kmat; cbn [unravel app]; rewrite !nprod_cons, nprod0, !Nat.mul_1_r, !Nat.div_1_r; reflexivity))).
  apply Hns; auto.
Qed.
Print Assumptions C68_jax_multivariate_mean_refuted.

(** When the batch size happens to be the number of observables times neighbours, jax still raises (the product cannot be reshaped) unless
    both are one; then the mean is right. *)
Theorem C68_jax_multivariate_coincidence : forall ls, exact_solver ls -> forall Kin Kcross T b m n o,
  shape Kin = [b; m; n; m; n] -> shape Kcross = [b; m; n; o] -> shape T = [b; m; n] ->
  (forall x, (x < b)%nat -> nonsingular (m * n) (flat5 Kin n x)) -> b = (m * n)%nat -> (0 < b)%nat -> (0 < o)%nat ->
  ((1 < b)%nat -> jx_posterior_mean ls Kin Kcross T = Err ValueError) /\
  (b = 1%nat -> exists t, jx_posterior_mean ls Kin Kcross T = Ok t /\ shape t = [1%nat; o] /\
     forall s, (s < o)%nat -> at_ t [O; s] = at_ Kcross [O; O; O; s] / at_ Kin [O; O; O; O; O] * at_ T [O; O; O]).
Proof. exact jx_mean5_coincidence. Qed.
Print Assumptions C68_jax_multivariate_coincidence.

(** torch's posterior mean and variance are the kriging mean and (unscaled) kriging variance. *)
Theorem C68_torch : forall ls, exact_solver ls -> forall Kin Kcross T Kout b n ex,
  shape Kin = [b; n; n] -> shape Kcross = [b; n] -> shape T = b :: n :: ex -> shape Kout = [] -> no_coincidence ex [n] ->
  (forall x, (x < b)%nat -> nonsingular n (rowmat Kin x)) ->
  exists mean var, to_posterior_mean ls Kin Kcross T = Ok mean /\ to_diagonal_variance ls Kin Kcross Kout 1 = Ok var /\
    shape mean = b :: ex /\ shape var = [b] /\
    forall x, (x < b)%nat ->
      (forall e, inb ex e -> kriging n (rowmat Kin x) (rowvec Kcross x) (fun j => at_ T (x :: j :: e)) (at_ mean (x :: e))) /\
      exists t, kriging n (rowmat Kin x) (rowvec Kcross x) (rowvec Kcross x) t /\ at_ var [x] = at_ Kout [] - t.
Proof. exact to_predictions_spec. Qed.
Print Assumptions C68_torch.

(** Fast prediction in jax and torch: the ordinary mean with unit axes dropped, for every batch, neighbour and response count
    (numpy's breaks for one row or one neighbour, C23). *)
Theorem C68_fast : forall ls, exact_solver ls -> forall Kin Kcross T b n,
  shape Kin = [b; n; n] -> shape Kcross = [b; n] ->
  (shape T = [b; n] \/ exists r, shape T = [b; n; r]) ->
  (forall x, (x < b)%nat -> symmetric n (rowmat Kin x)) ->
  (forall x, (x < b)%nat -> nonsingular n (rowmat Kin x)) ->
  exists C F M, bk_fast_precompute ls Kin T = Ok C /\ fast_posterior_mean Kcross C = Ok F /\
    jx_posterior_mean ls Kin Kcross T = Ok M /\ nd_eq F (squeeze M).
Proof.
  intros ls Hls Kin Kcross T b n SK SC [ST|(r & ST)] Hs Hn.
  - destruct (bk_fast2 ls Hls Kin Kcross T b n SK SC ST Hs Hn) as (C & F & M & H1 & H2 & H3 & _ & H4). eauto 8.
  - destruct (bk_fast3 ls Hls Kin Kcross T b n r SK SC ST Hs Hn) as (C & F & M & H1 & H2 & H3 & _ & H4). eauto 8.
Qed.
Print Assumptions C68_fast.

Lemma exKin_ns x : nonsingular 2 (rowmat exKin x).
Proof. apply pd_nonsingular. apply exKin_pd. Qed.
Definition exK5 : nd R := mkNd [1; 1; 2; 1; 2]%nat (fun idx => match idx with [x; _; i; _; j] => at_ exKin [x; i; j] | _ => 0 end).
Example C68_sat : (exists C F M, bk_fast_precompute gauss exKin exT3 = Ok C /\ fast_posterior_mean exKcross C = Ok F /\
    jx_posterior_mean gauss exKin exKcross exT3 = Ok M /\ nd_eq F (squeeze M)) /\
  (exists M, jx_posterior_mean gauss exKin exKcross exKin = Ok M) /\
  (forall x, (x < 1)%nat -> nonsingular (1 * 2) (flat5 exK5 2 x)) /\ 1%nat <> (1 * 2)%nat /\
  (forall x, (x < 1)%nat -> nonsingular (1 * 1) (flat5 (mkNd [1; 1; 1; 1; 1]%nat (fun _ => 2)) 1 x)) /\ no_coincidence [3%nat] [2%nat].
Proof.
  split; [|split; [|split; [|split; [discriminate|split]]]].
  - apply (C68_fast gauss gauss_exact exKin exKcross exT3 2 2 eq_refl eq_refl).
    + right. exists 3%nat. reflexivity.
    + intros; apply exKin_sym.
    + intros; apply exKin_ns.
  - destruct (C68_jax_every_response_count gauss gauss_exact exKin exKcross exKin 2 2 2 eq_refl eq_refl eq_refl) as (M & E & _);
      [intros; apply exKin_ns|eauto].
  - intros x Hx. apply (proj1 (nonsingular_cong 2 (rowmat exKin x) (flat5 exK5 2 x)
      ltac:(intros i j Hi Hj; unfold flat5, rowmat, exK5; cbn [at_]; rewrite !Nat.mod_small by lia; reflexivity))).
    apply exKin_ns.
  - intros x Hx v Hv j Hj. specialize (Hv O ltac:(lia)). cbn in Hv. destruct j; [lra|lia].
  - split; [cbn; lia|]. intros k Hk. assert (k = 0%nat) as -> by (cbn in Hk; lia). discriminate.
Qed.

(** * C69: losses *)
Theorem C69_jax_lool : forall ls sld p t v s b, shape v = [b] -> jx_lool ls p t v s = lool_fn ls sld p t v s.
Proof. exact jx_lool_eq. Qed.
Print Assumptions C69_jax_lool.

(** jax renormalizes the clipped probabilities; nothing changes while no probability is clipped. *)
Theorem C69_jax_cross_entropy_partial : forall eps P T b k, shape P = [b; k] -> shape T = [b; k] -> (0 < b)%nat -> (2 <= k)%nat ->
  (forall i j, (i < b)%nat -> (j < k)%nat -> eps <= prob k (fun c => at_ P [i; c]) j <= 1 - eps) ->
  jx_cross_entropy eps P T = cross_entropy_fn eps P T.
Proof. exact jx_ce. Qed.
Print Assumptions C69_jax_cross_entropy_partial.

(** Torch losses of b-vectors: a number, numpy's. *)
Theorem C69_torch_vectors : forall ls sld p t v s d b, vec3 p t v b ->
  (exists u, to_mse p t = Ok u /\ shape u = [] /\ mse_fn p t = Ok (at_ u [])) /\
  (exists u, to_pseudo_huber p t d = Ok u /\ shape u = [] /\ pseudo_huber_fn p t d = Ok (at_ u [])) /\
  (exists u, to_lool ls p t v s = Ok u /\ shape u = [] /\ lool_fn ls sld p t v s = Ok (at_ u [])) /\
  (exists u, to_looph p t v s d = Ok u /\ shape u = [] /\ looph_fn p t v s d = Ok (at_ u [])).
Proof.
  intros ls sld p t v s d b H. split; [|split; [|split]].
  - destruct (to_mse_spec p t b []) as (u & E & S & M & _); try apply H. eauto.
  - destruct (to_huber_spec p t d b []) as (u & E & S & M); try apply H. eauto.
  - eapply to_lool_spec; eauto.
  - eapply to_looph_spec; eauto.
Qed.
Print Assumptions C69_torch_vectors.

(** Torch losses of (b, s) predictions: a vector of s column losses whose sum is numpy's number, because the wrapped torch.sum only
    sums over the first axis. *)
Theorem C69_torch_responses_refuted : forall p t d b s, shape p = [b; s] -> shape t = [b; s] ->
  exists u v, to_mse p t = Ok u /\ shape u = [s] /\ mse_fn p t = Ok (rsum s (fun j => at_ u [j])) /\
    to_pseudo_huber p t d = Ok v /\ shape v = [s] /\ pseudo_huber_fn p t d = Ok (rsum s (fun j => at_ v [j])).
Proof.
  intros p t d b s Sp St. destruct (to_mse_spec p t b [s] Sp St) as (u & E & S & M & _).
  destruct (to_huber_spec p t d b [s] Sp St) as (v & E' & S' & M'). exists u, v. auto 10.
Qed.
Print Assumptions C69_torch_responses_refuted.

Theorem C69_torch_cross_entropy_two_classes_partial : forall eps P T b, shape P = [b; 2%nat] -> shape T = [b; 2%nat] -> (0 < b)%nat ->
  (forall i j, (i < b)%nat -> (j < 2)%nat -> eps <= prob 2 (fun c => at_ P [i; c]) j <= 1 - eps) ->
  (forall i, (i < b)%nat -> (0 < at_ T [i; O] /\ at_ T [i; 1%nat] <= 0) \/ (at_ T [i; O] <= 0 /\ 0 < at_ T [i; 1%nat])) ->
  to_cross_entropy P T = cross_entropy_fn eps P T.
Proof. exact to_ce_two. Qed.
Print Assumptions C69_torch_cross_entropy_two_classes_partial.

Theorem C69_torch_cross_entropy_three_classes_refuted : exists P T v w,
  shape P = [1; 3]%nat /\ shape T = [1; 3]%nat /\ to_cross_entropy P T = Ok v /\ cross_entropy_fn (/ 1000) P T = Ok w /\ v < w.
Proof.
  destruct to_ce_three as (v & w & H). exists three_scores, three_classes, v, w. split; [reflexivity|]. split; [reflexivity|]. exact H.
Qed.
Print Assumptions C69_torch_cross_entropy_three_classes_refuted.

(** Block variances (shear models): jax and torch raise. *)
Theorem C69_block_lool_refuted : forall ls p t v s b n, exact_solver ls ->
  shape p = [b; n] -> shape t = [b; n] -> shape v = [b; n; n] ->
  (forall x, (x < b)%nat -> nonsingular n (fun i j => s * at_ v [x; i; j])) ->
  jx_lool ls p t v s = Err TypeError /\ to_lool ls p t v s = Err TypeError.
Proof. exact bk_lool_block. Qed.
Print Assumptions C69_block_lool_refuted.

Example C69_sat : (exists p t v : nd R, vec3 p t v 2) /\
  (exists P T : nd R, shape P = [1; 2]%nat /\ shape T = [1; 2]%nat /\
    (forall i j, (i < 1)%nat -> (j < 2)%nat -> / 1000 <= prob 2 (fun c => at_ P [i; c]) j <= 1 - / 1000) /\
    (forall i, (i < 1)%nat -> (0 < at_ T [i; O] /\ at_ T [i; 1%nat] <= 0) \/ (at_ T [i; O] <= 0 /\ 0 < at_ T [i; 1%nat]))) /\
  (forall x, nonsingular 2 (fun i j => 1 * at_ exKin [x; i; j])).
Proof.
  split; [exists (mkNd [2%nat] (fun _ => 1)), (mkNd [2%nat] (fun _ => 2)), (mkNd [2%nat] (fun _ => 3)); repeat split|]. split.
  - exists (mkNd [1; 2]%nat (fun _ => 0)), (mkNd [1; 2]%nat (fun idx => match idx with [_; O] => 1 | _ => -1 end)).
    split; [reflexivity|]. split; [reflexivity|]. split.
    + intros i j Hi Hj. unfold prob. cbn [rsum at_]. rewrite exp_0. lra.
    + intros i Hi. left. cbn. lra.
  - intros x. apply (proj1 (nonsingular_cong 2 (rowmat exKin x) (fun i j => 1 * at_ exKin [x; i; j])
      ltac:(intros; unfold rowmat; ring))). apply exKin_ns.
Qed.

(** * C70: scale optimization *)
Theorem C70_jax_scale : forall ls, exact_solver ls -> forall Kin T b n, shape Kin = [b; n; n] -> shape T = [b; n] ->
  jx_analytic_scale ls Kin T = analytic_scale ls Kin T.
Proof. exact jx_scale3. Qed.
Print Assumptions C70_jax_scale.

(** Targets with a trailing response axis of length one: numpy optimizes, jax raises. *)
Theorem C70_jax_trailing_axis_refuted : forall ls, exact_solver ls -> forall Kin T b n, shape Kin = [b; n; n] -> shape T = [b; n; 1%nat] ->
  (forall x, (x < b)%nat -> nonsingular n (rowmat Kin x)) ->
  jx_analytic_scale ls Kin T = Err AssertionError /\ exists s, analytic_scale ls Kin T = Ok s.
Proof.
  intros ls Hls Kin T b n SK ST Hns. split; [exact (jx_scale_trailing ls Kin T b n SK ST)|].
  exact (analytic_total ls Hls Kin T b n SK (or_intror ST) Hns).
Qed.
Print Assumptions C70_jax_trailing_axis_refuted.

(** Five axes (b, observables, nn, observables, nn): jax's scale is nn times numpy's. *)
Theorem C70_jax_multivariate_refuted : forall ls, exact_solver ls -> forall Kin T b m n s,
  shape Kin = [b; m; n; m; n] -> shape T = [b; m; n] -> (0 < b)%nat -> (0 < m)%nat -> (0 < n)%nat ->
  analytic_scale ls Kin T = Ok s -> jx_analytic_scale ls Kin T = Ok (INR n * s).
Proof. exact jx_scale5. Qed.
Print Assumptions C70_jax_multivariate_refuted.

(** Torch: numpy's value, as a one-element array. *)
Theorem C70_torch_scale : forall ls Kin T s b, firstn 1 (shape Kin) = [b] -> analytic_scale ls Kin T = Ok s ->
  exists t, to_analytic_scale ls Kin T = Ok t /\ shape t = [1%nat] /\ at_ t [O] = s.
Proof. exact to_scale. Qed.
Print Assumptions C70_torch_scale.

Theorem C70_torch_optimizers_refuted : forall o, optimizer_available Torch o = Err NotImplementedError /\
  optimizer_available Numpy o = Ok tt /\ optimizer_available Jax o = Ok tt.
Proof. intros []; repeat split. Qed.
Print Assumptions C70_torch_optimizers_refuted.

Example C70_sat : exists s, analytic_scale gauss exKin exT2 = Ok s /\ jx_analytic_scale gauss exKin exT2 = Ok s.
Proof.
  rewrite (C70_jax_scale gauss gauss_exact exKin exT2 2 2 eq_refl eq_refl).
  destruct (analytic_total gauss gauss_exact exKin exT2 2 2 eq_refl (or_introl eq_refl) (fun x _ => exKin_ns x)) as [s Es]. eauto.
Qed.
