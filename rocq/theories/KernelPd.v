(** Positive (semi)definiteness of the library covariances at arbitrary points, and strictly at distinct points. *)
From Coq Require Import Lra Lia.
From Verif Require Import Base NdModel NdFacts RSum HyperModel NamedModel NamedSpec TensorModel TensorSpec TensorProofs
  LinAlgSpec LinAlgFacts GPSpec KernelModel KernelSpec KernelProofs KernelLemmas GaussPd.
From Verif Require MixtureProofs MaternPsd.
Local Open Scope R_scope.

Lemma pd_ext n A B : (forall i j, (i < n)%nat -> (j < n)%nat -> A i j = B i j) -> pd n A -> pd n B.
Proof. intros H P x Hx. rewrite <- (quad_ext n A B x x); auto. Qed.
Lemma quad_scal n a A c : quad n (fun i j => a * A i j) c = a * quad n A c.
Proof. unfold quad. rewrite <- rsum_scal. apply rsum_ext. intros i _. rewrite <- rsum_scal. apply rsum_ext. intros j _. ring. Qed.
Lemma psd_scal n a A : 0 <= a -> psd n A -> psd n (fun i j => a * A i j).
Proof. intros Ha P c. rewrite quad_scal. apply Rmult_le_pos; auto. Qed.
Lemma pd_scal n a A : 0 < a -> pd n A -> pd n (fun i j => a * A i j).
Proof. intros Ha P c Hc. rewrite quad_scal. apply Rmult_lt_0_compat; auto. Qed.

(** Scaling points. *)
Lemma sqdist_scal F s x y : sqdist F (fun f => s * x f) (fun f => s * y f) = s ^ 2 * sqdist F x y.
Proof. unfold sqdist. rewrite <- rsum_scal. apply rsum_ext. intros. ring. Qed.

Lemma mix_gauss F (x : nat -> nat -> R) kappa u i j : 0 < u ->
  exp (- (kappa * sqrt (sqdist F (x i) (x j)) / u * (kappa * sqrt (sqdist F (x i) (x j)) / u))) =
  exp (- sqdist F (fun f => sqrt 2 * kappa / u * x i f) (fun f => sqrt 2 * kappa / u * x j f) / 2).
Proof.
  intros U. f_equal. rewrite sqdist_scal. set (D := sqdist F (x i) (x j)).
  assert (S : sqrt D * sqrt D = D) by (apply sqrt_sqrt, sqdist_nonneg).
  assert (T : sqrt 2 * sqrt 2 = 2) by (apply sqrt_sqrt; lra).
  replace (kappa * sqrt D / u * (kappa * sqrt D / u)) with ((kappa / u) * (kappa / u) * (sqrt D * sqrt D)) by (unfold Rdiv; ring).
  replace ((sqrt 2 * kappa / u) ^ 2) with ((sqrt 2 * sqrt 2) * ((kappa / u) * (kappa / u))) by (unfold Rdiv; ring).
  rewrite S, T. field. lra.
Qed.
Definition separated (F n : nat) (x : nat -> nat -> R) : Prop :=
  forall i j, (i < n)%nat -> (j < n)%nat -> i <> j -> sqdist F (x i) (x j) <> 0.

Lemma mix_points_psd p F (x : nat -> nat -> R) n kappa : (p <= 2)%nat -> 0 < kappa ->
  psd n (fun i j => MixtureProofs.mixval p (kappa * sqrt (sqdist F (x i) (x j)))).
Proof.
  intros Hp K. apply (MaternPsd.mixture_psd p n (fun i j => kappa * sqrt (sqdist F (x i) (x j)))); auto.
  - intros i j _ _. apply Rmult_le_pos; [lra|apply sqrt_pos].
  - intros u Hu. eapply psd_ext; [|apply (gauss_gram_psd F (fun i f => sqrt 2 * kappa / u * x i f) n)].
    intros i j _ _. symmetry. apply (mix_gauss F x kappa u i j Hu).
Qed.
Lemma mix_points_pd p F (x : nat -> nat -> R) n kappa : (p <= 2)%nat -> 0 < kappa -> separated F n x ->
  pd n (fun i j => MixtureProofs.mixval p (kappa * sqrt (sqdist F (x i) (x j)))).
Proof.
  intros Hp K SEP. apply (MaternPsd.mixture_pd p n (fun i j => kappa * sqrt (sqdist F (x i) (x j)))); auto.
  - intros i j _ _. apply Rmult_le_pos; [lra|apply sqrt_pos].
  - intros u Hu. eapply pd_ext; [|apply (gauss_gram_pd F (fun i f => sqrt 2 * kappa / u * x i f) n)].
    + intros i j _ _. symmetry. apply (mix_gauss F x kappa u i j Hu).
    + intros i j Hi Hj Hij. rewrite sqdist_scal. apply Rmult_integral_contrapositive_currified; [|apply SEP; auto].
      apply pow_nonzero. assert (0 < sqrt 2) by (apply sqrt_lt_R0; lra).
      apply Rmult_integral_contrapositive_currified; [nra|]. apply Rinv_neq_0_compat. lra.
Qed.

(** Each closed form is a positive multiple of a mixture, or a Gaussian. *)
Lemma half_mix d : matern_half d = 1 * MixtureProofs.mixval 0 (1 / 2 * d).
Proof. unfold matern_half. cbn [MixtureProofs.mixval]. rewrite Rmult_1_l. f_equal. lra. Qed.
Lemma three_mix d : matern_three_halves d = 2 * MixtureProofs.mixval 1 (sqrt 3 / 2 * d).
Proof.
  unfold matern_three_halves. cbn [MixtureProofs.mixval].
  replace (- (2 * (sqrt 3 / 2 * d))) with (- (sqrt 3 * d)) by field. field.
Qed.
Lemma five_mix d : matern_five_halves d = 4 / 3 * MixtureProofs.mixval 2 (sqrt 5 / 2 * d).
Proof.
  unfold matern_five_halves. cbn [MixtureProofs.mixval].
  replace (- (2 * (sqrt 5 / 2 * d))) with (- (sqrt 5 * d)) by field.
  replace (5 * d ^ 2 / 3) with (sqrt 5 * sqrt 5 * d ^ 2 / 3) by (rewrite sqrt_sqrt by lra; reflexivity). field.
Qed.

Lemma matern_points_psd gamma kv f nu F (x : nat -> nat -> R) n : f <> General ->
  psd n (fun i j => matern_value gamma kv f nu (sqrt (sqdist F (x i) (x j)))).
Proof.
  intros NG. assert (S3 : 0 < sqrt 3) by (apply sqrt_lt_R0; lra). assert (S5 : 0 < sqrt 5) by (apply sqrt_lt_R0; lra).
  destruct f; cbn [matern_value]; try congruence.
  - eapply psd_ext; [intros; symmetry; apply half_mix|]. apply psd_scal; [lra|apply mix_points_psd; auto; lra].
  - eapply psd_ext; [intros; symmetry; apply three_mix|]. apply psd_scal; [lra|apply mix_points_psd; auto; lra].
  - eapply psd_ext; [intros; symmetry; apply five_mix|]. apply psd_scal; [lra|apply mix_points_psd; auto; lra].
  - eapply psd_ext; [|apply (gauss_gram_psd F x n)]. intros i j _ _. cbn beta. unfold gaussian. f_equal. f_equal. f_equal.
    cbn [pow]. rewrite Rmult_1_r, sqrt_sqrt; auto. apply sqdist_nonneg.
Qed.
Lemma matern_points_pd gamma kv f nu F (x : nat -> nat -> R) n : f <> General -> separated F n x ->
  pd n (fun i j => matern_value gamma kv f nu (sqrt (sqdist F (x i) (x j)))).
Proof.
  intros NG SEP. assert (S3 : 0 < sqrt 3) by (apply sqrt_lt_R0; lra). assert (S5 : 0 < sqrt 5) by (apply sqrt_lt_R0; lra).
  destruct f; cbn [matern_value]; try congruence.
  - eapply pd_ext; [intros; symmetry; apply half_mix|]. apply pd_scal; [lra|apply mix_points_pd; auto; lra].
  - eapply pd_ext; [intros; symmetry; apply three_mix|]. apply pd_scal; [lra|apply mix_points_pd; auto; lra].
  - eapply pd_ext; [intros; symmetry; apply five_mix|]. apply pd_scal; [lra|apply mix_points_pd; auto; lra].
  - eapply pd_ext; [|apply (gauss_gram_pd F x n)]; auto. intros i j _ _. cbn beta. unfold gaussian. f_equal. f_equal. f_equal.
    cbn [pow]. rewrite Rmult_1_r, sqrt_sqrt; auto. apply sqdist_nonneg.
Qed.
Lemma matern_at_0 gamma kv f nu : f <> General -> matern_value gamma kv f nu 0 = 1.
Proof.
  intros NG. destruct f; cbn [matern_value]; try congruence; unfold matern_half, matern_three_halves, matern_five_halves, gaussian.
  - replace (- 0) with 0 by ring. apply exp_0.
  - replace (- (sqrt 3 * 0)) with 0 by ring. rewrite exp_0. ring.
  - replace (- (sqrt 5 * 0)) with 0 by ring. rewrite exp_0. field.
  - replace (- 0 ^ 2 / 2) with 0 by field. apply exp_0.
Qed.

(** ** Through the API *)
(** Neighbours [i < k] of batch row [x], selected by [nix], are pairwise distinct points. *)
Definition distinct_neighbors (data : nd R) (n : nat) (nix : nd Z) (k x : nat) : Prop :=
  forall i j r r', (i < k)%nat -> (j < k)%nat -> i <> j ->
    selects n (at_ nix [x; i]) r -> selects n (at_ nix [x; j]) r' ->
    exists f, (f < feature_count data)%nat /\ feature data r f <> feature data r' f.

Lemma sqdist_pos F x y f : (f < F)%nat -> x f <> y f -> sqdist F x y <> 0.
Proof.
  intros Hf D. unfold sqdist. intros Z.
  pose proof (rsum_zero_inv F (fun f => (x f - y f) ^ 2) ltac:(intros; apply pow2_ge_0) Z f Hf) as E. cbn beta in E.
  apply D. assert (x f - y f = 0); [|lra]. apply Rmult_integral in E. destruct E as [E|E]; auto. lra.
Qed.
Lemma separated_rows d data n nix k x cur kw : positive_scales d (feature_count data) cur kw ->
  (forall i, (i < k)%nat -> ~ out_of_range n (at_ nix [x; i])) -> distinct_neighbors data n nix k x ->
  separated (feature_count data) k (fun i f => feature data (row_of n (at_ nix [x; i])) f / scale_of d cur kw f).
Proof.
  intros POS R D i j Hi Hj Hij.
  destruct (D i j _ _ Hi Hj Hij (row_of_selects _ _ (R i Hi)) (row_of_selects _ _ (R j Hj))) as (f & Hf & N).
  apply (sqdist_pos _ _ _ f Hf). pose proof (POS f Hf). intros E. apply N.
  apply (Rmult_eq_reg_r (/ scale_of d cur kw f)); [exact E|]. apply Rinv_neq_0_compat. lra.
Qed.

Lemma rbf_gram_pd d data nix n b k cur kw :
  dataset data n -> shape nix = [b; k]%nat ->
  (forall x i, (x < b)%nat -> (i < k)%nat -> ~ out_of_range n (at_ nix [x; i])) ->
  (forall x, (x < b)%nat -> distinct_neighbors data n nix k x) ->
  deformation_ok d (feature_count data) kw -> (0 < feature_count data)%nat ->
  positive_scales d (feature_count data) cur kw -> metric_of d = F2 ->
  exists D K, deform_pairwise d data nix = Ok D /\ rbf_call d cur D kw = Ok K /\ shape K = [b; k; k]%nat /\
    forall x, (x < b)%nat -> symmetric k (rowmat K x) /\ pd k (rowmat K x).
Proof.
  intros Hd Sn Hr DI OK HF POS M.
  destruct (rbf_pairwise d data nix n b k cur kw Hd Sn Hr OK HF POS M) as (D & K & ED & EK & SK & AK).
  exists D, K. repeat (split; [assumption|]). intros x Hx.
  set (pt := fun i f => feature data (row_of n (at_ nix [x; i])) f / scale_of d cur kw f).
  assert (E : forall i j, (i < k)%nat -> (j < k)%nat ->
    rowmat K x i j = exp (- sqdist (feature_count data) (pt i) (pt j) / 2)).
  { intros i j Hi Hj. unfold rowmat.
    rewrite (AK x i j (row_of n (at_ nix [x; i])) (row_of n (at_ nix [x; j]))) by (auto; apply row_of_selects; auto).
    rewrite scaled_as_sqdist. reflexivity. }
  split.
  - intros i j Hi Hj. rewrite !E by auto. rewrite sqdist_sym. reflexivity.
  - apply (pd_ext k (fun i j => exp (- sqdist (feature_count data) (pt i) (pt j) / 2))).
    + intros i j Hi Hj. symmetry. auto.
    + apply gauss_gram_pd. apply separated_rows; auto.
Qed.

Lemma matern_gram gamma kv d sm p data nix n b k cur kw :
  dataset data n -> shape nix = [b; k]%nat ->
  (forall x i, (x < b)%nat -> (i < k)%nat -> ~ out_of_range n (at_ nix [x; i])) ->
  deformation_ok d (feature_count data) kw -> (0 < feature_count data)%nat ->
  positive_scales d (feature_count data) cur kw -> metric_of d = L2 ->
  nm_name sm = "smoothness"%string -> formula_for p <> General ->
  exists D K, deform_pairwise d data nix = Ok D /\
    matern_call gamma kv d sm (set_matern_fn p) cur D kw = Ok K /\ shape K = [b; k; k]%nat /\
    forall x, (x < b)%nat ->
      symmetric k (rowmat K x) /\ psd k (rowmat K x) /\ (forall i, (i < k)%nat -> rowmat K x i i = 1) /\
      (distinct_neighbors data n nix k x -> pd k (rowmat K x)).
Proof.
  intros Hd Sn Hr OK HF POS M Hsm NG.
  destruct (matern_pairwise gamma kv d sm p data nix n b k cur kw Hd Sn Hr OK HF POS Hsm) as (D & K & ED & EK & SK & AK).
  exists D, K. repeat (split; [assumption|]). intros x Hx.
  set (pt := fun i f => feature data (row_of n (at_ nix [x; i])) f / scale_of d cur kw f).
  set (nu := kw_or kw "smoothness" (cur (nm_loc sm))) in *.
  assert (E : forall i j, (i < k)%nat -> (j < k)%nat ->
    rowmat K x i j = matern_value gamma kv (formula_for p) nu (sqrt (sqdist (feature_count data) (pt i) (pt j)))).
  { intros i j Hi Hj. unfold rowmat.
    rewrite (AK x i j (row_of n (at_ nix [x; i])) (row_of n (at_ nix [x; j]))) by (auto; apply row_of_selects; auto).
    rewrite M. unfold deformed. rewrite scaled_as_sqdist. reflexivity. }
  split; [|split; [|split]].
  - intros i j Hi Hj. rewrite !E by auto. rewrite sqdist_sym. reflexivity.
  - eapply psd_ext; [|apply (matern_points_psd gamma kv (formula_for p) nu (feature_count data) pt k NG)].
    intros i j Hi Hj. symmetry. auto.
  - intros i Hi. rewrite E by auto. rewrite sqdist_refl, sqrt_0. apply matern_at_0; auto.
  - intros DI. eapply pd_ext; [|apply (matern_points_pd gamma kv (formula_for p) nu (feature_count data) pt k NG)].
    + intros i j Hi Hj. symmetry. auto.
    + apply separated_rows; auto.
Qed.

Lemma matern_joint gamma kv d sm p test train ix nix n n' b k cur kw :
  dataset test n -> dataset train n' -> ndim test = ndim train ->
  feature_count test = feature_count train ->
  shape ix = [b] -> shape nix = [b; k]%nat ->
  (forall x, (x < b)%nat -> ~ out_of_range n (at_ ix [x])) ->
  (forall x i, (x < b)%nat -> (i < k)%nat -> ~ out_of_range n' (at_ nix [x; i])) ->
  deformation_ok d (feature_count test) kw -> (0 < feature_count test)%nat ->
  positive_scales d (feature_count test) cur kw -> metric_of d = L2 ->
  nm_name sm = "smoothness"%string -> formula_for p <> General ->
  exists Dc Dp Kcross Kin,
    deform_crosswise d test train ix nix = Ok Dc /\ deform_pairwise d train nix = Ok Dp /\
    matern_call gamma kv d sm (set_matern_fn p) cur Dc kw = Ok Kcross /\ matern_call gamma kv d sm (set_matern_fn p) cur Dp kw = Ok Kin /\
    shape Kcross = [b; k]%nat /\ shape Kin = [b; k; k]%nat /\
    forall x, (x < b)%nat ->
      symmetric k (rowmat Kin x) /\ psd k (rowmat Kin x) /\
      psd (S k) (joint 1 (rowvec Kcross x) (rowmat Kin x)).
Proof.
  intros Hd Hn En Ef Si Sn Hi Hr OK HF POS M Hsm NG.
  destruct (matern_crosswise gamma kv d sm p test train ix nix n n' b k cur kw Hd Hn En Ef Si Sn Hi Hr OK HF POS Hsm)
    as (Dc & Kc & EDc & EKc & SKc & AKc).
  assert (OK' : deformation_ok d (feature_count train) kw) by (rewrite <- Ef; exact OK).
  assert (HF' : (0 < feature_count train)%nat) by (rewrite <- Ef; exact HF).
  assert (POS' : positive_scales d (feature_count train) cur kw) by (rewrite <- Ef; exact POS).
  destruct (matern_pairwise gamma kv d sm p train nix n' b k cur kw Hn Sn Hr OK' HF' POS' Hsm) as (Dp & Kp & EDp & EKp & SKp & AKp).
  destruct (matern_gram gamma kv d sm p train nix n' b k cur kw Hn Sn Hr OK' HF' POS' M Hsm NG) as (Dp2 & Kp2 & EDp2 & EKp2 & _ & G).
  assert (Dp2 = Dp) by congruence. subst Dp2. assert (Kp2 = Kp) by congruence. subst Kp2.
  exists Dc, Dp, Kc, Kp. repeat (split; [assumption|]). intros x Hx.
  destruct (G x Hx) as (G1 & G2 & _). split; auto. split; auto.
  set (F := feature_count test) in *. set (nu := kw_or kw "smoothness" (cur (nm_loc sm))) in *.
  rewrite M in AKc, AKp. unfold deformed in AKc, AKp.
  set (pt := fun i f => match i with
    | O => feature test (row_of n (at_ ix [x])) f / scale_of d cur kw f
    | S i' => feature train (row_of n' (at_ nix [x; i'])) f / scale_of d cur kw f end).
  apply (psd_ext (S k) (fun i j => matern_value gamma kv (formula_for p) nu (sqrt (sqdist F (pt i) (pt j)))));
    [|apply matern_points_psd; auto].
  intros i j Hii Hj. destruct i as [|i], j as [|j]; cbn [joint].
  - rewrite sqdist_refl, sqrt_0. apply matern_at_0; auto.
  - unfold rowvec. rewrite (AKc x j (row_of n (at_ ix [x])) (row_of n' (at_ nix [x; j]))) by
      (try lia; apply row_of_selects; auto with arith). rewrite scaled_as_sqdist. reflexivity.
  - unfold rowvec. rewrite (AKc x i (row_of n (at_ ix [x])) (row_of n' (at_ nix [x; i]))) by
      (try lia; apply row_of_selects; auto with arith). rewrite scaled_as_sqdist, sqdist_sym. reflexivity.
  - unfold rowmat. rewrite (AKp x i j (row_of n' (at_ nix [x; i])) (row_of n' (at_ nix [x; j]))) by
      (try lia; apply row_of_selects; auto with arith). rewrite scaled_as_sqdist, <- Ef. reflexivity.
Qed.
