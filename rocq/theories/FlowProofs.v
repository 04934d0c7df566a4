(** Proofs about the fast prediction workflows. *)
From Coq Require Import Lia Lra.
From Verif Require Import Base BaseFacts NdModel NdFacts RSum LinAlgModel LinAlgSpec LinAlgFacts
  GPModel NoiseModel MuyGPSModel MuyGPSProofs GPSpec GPTheorems FastProofs TensorModel TensorSpec TensorProofs
  FlowModel FlowSpec.
Local Open Scope R_scope.

Lemma selects_of_nat n i : (i < n)%nat -> selects n (Z.of_nat i) i.
Proof. intros H; split; auto. Qed.
Lemma in_range_of_nat n i : (i < n)%nat -> ~ out_of_range n (Z.of_nat i).
Proof. unfold out_of_range; lia. Qed.

Lemma update_matrix nn n w N q : index_matrix nn n (S w) N q -> (n <= N)%nat ->
  index_matrix (fast_nn_update nn) n (S w) N (with_self q).
Proof.
  intros [Hs H] Hn. unfold fast_nn_update. rewrite Hs. replace (S (S w - 1)) with (S w) by lia.
  split; [reflexivity|]. intros x j Hx Hj. destruct j as [|j]; cbn [at_ with_self].
  - split; [auto|lia].
  - apply H; lia.
Qed.

Lemma take_matrix nn n w N q cl t c : index_matrix nn n w N q -> shape cl = [t] ->
  (forall x, (x < t)%nat -> at_ cl [x] = Z.of_nat (c x) /\ (c x < n)%nat) ->
  exists sel, take nn cl = Ok sel /\ index_matrix sel t w N (fun x j => q (c x) j).
Proof.
  intros [Hs H] Hcl Hc.
  destruct (take_ok nn cl n [w] Hs) as (sel & E & Ss & Hv).
  { intros idx Hi. rewrite Hcl in Hi. apply inb_inv1 in Hi as (x & -> & Hx).
    destruct (Hc x Hx) as [-> Hl]. apply in_range_of_nat; auto. }
  exists sel. split; auto. split; [rewrite Ss, Hcl; reflexivity|].
  intros x j Hx Hj. destruct (Hc x Hx) as [Ec Hl].
  specialize (Hv [x] [j] (c x)). cbn [app] in Hv. rewrite Hv.
  - apply H; auto.
  - rewrite Hcl. apply inb1; auto.
  - rewrite Ec. apply selects_of_nat; auto.
Qed.

Lemma pairwise_kernel F kern k train nn N n w q :
  pointwise_kernel F kern k -> dataset train N -> feature_count train = F -> index_matrix nn n w N q ->
  exists pw Kin, pairwise_tensor train nn = Ok pw /\ kern pw = Ok Kin /\ shape Kin = [n; w; w] /\
    forall x i j, (x < n)%nat -> (i < w)%nat -> (j < w)%nat ->
      at_ Kin [x; i; j] = kcov k train train (q x i) (q x j).
Proof.
  intros [Hext Hk] Hd HF [Hs H].
  destruct (pairwise_spec train nn N n w Hd Hs) as (pw & E & Sp & Hv).
  { intros x i Hx Hi. destruct (H x i Hx Hi) as [-> Hl]. apply in_range_of_nat; auto. }
  rewrite HF in *.
  destruct (Hk pw [n; w; w] Sp) as (Kin & EK & SK & HK).
  exists pw, Kin. split; [auto|]. split; [auto|]. split; [auto|]. intros x i j Hx Hi Hj.
  rewrite HK by (apply inb3; auto). apply Hext. intros f Hf. cbn [app].
  destruct (H x i Hx Hi) as [E1 L1], (H x j Hx Hj) as [E2 L2].
  apply (Hv x i j f); auto; [rewrite E1|rewrite E2]; apply selects_of_nat; auto.
Qed.

Lemma crosswise_kernel F kern k test train ix nn M N t w c q :
  pointwise_kernel F kern k -> dataset test M -> dataset train N -> ndim test = ndim train ->
  feature_count test = F -> feature_count train = F ->
  shape ix = [t] -> (forall x, (x < t)%nat -> at_ ix [x] = Z.of_nat (c x) /\ (c x < M)%nat) ->
  index_matrix nn t w N q ->
  exists cw Kc, crosswise_tensor test train ix nn = Ok cw /\ kern cw = Ok Kc /\ shape Kc = [t; w] /\
    forall x j, (x < t)%nat -> (j < w)%nat -> at_ Kc [x; j] = kcov k test train (c x) (q x j).
Proof.
  intros [Hext Hk] Hd Hd' Hnd HF HF' Hix Hc [Hs H].
  destruct (crosswise_spec test train ix nn M N t w Hd Hd' Hnd) as (cw & E & Sp & Hv); auto.
  { congruence. }
  { intros x Hx. destruct (Hc x Hx) as [-> Hl]. apply in_range_of_nat; auto. }
  { intros x i Hx Hi. destruct (H x i Hx Hi) as [-> Hl]. apply in_range_of_nat; auto. }
  rewrite HF in *.
  destruct (Hk cw [t; w] Sp) as (Kc & EK & SK & HK).
  exists cw, Kc. split; [auto|]. split; [auto|]. split; [auto|]. intros x j Hx Hj.
  rewrite HK by (apply inb2; auto). apply Hext. intros f Hf. cbn [app].
  destruct (H x j Hx Hj) as [E2 L2], (Hc x Hx) as [E1 L1].
  apply (Hv x j f); auto; [rewrite E1|rewrite E2]; apply selects_of_nat; auto.
Qed.

Lemma target_tensor (targets : nd R) nn N n w q r : shape targets = [N; r] -> index_matrix nn n w N q ->
  exists T, take targets nn = Ok T /\ shape T = [n; w; r] /\
    forall x j s, (x < n)%nat -> (j < w)%nat -> at_ T [x; j; s] = at_ targets [q x j; s].
Proof.
  intros HT [Hs H]. destruct (take_ok targets nn N [r] HT) as (T & E & ST & Hv).
  { intros idx Hi. rewrite Hs in Hi. apply inb_inv2 in Hi as (x & j & -> & Hx & Hj).
    destruct (H x j Hx Hj) as [-> Hl]. apply in_range_of_nat; auto. }
  exists T. split; [auto|]. split; [rewrite ST, Hs; reflexivity|]. intros x j s Hx Hj.
  destruct (H x j Hx Hj) as [Ej Hl]. specialize (Hv [x; j] [s] (q x j)). cbn [app] in Hv. apply Hv.
  - rewrite Hs. apply inb2; auto.
  - rewrite Ej. apply selects_of_nat; auto.
Qed.

Section T.
Variable ls : lsolver.
Hypothesis Hls : exact_solver ls.

(** Squeezed coefficient tensors: one row per training point. *)
Lemma coefficients_from g F kern k train targets nn N w q r :
  pointwise_kernel F kern k -> dataset train N -> feature_count train = F ->
  shape targets = [N; r] -> index_matrix nn N w N q -> N <> 1%nat -> w <> 1%nat ->
  noise_fits (gp_noise g) N w ->
  (forall c, (c < N)%nat -> nonsingular w (nbr_matrix k (gp_noise g) train q c)) ->
  exists C coef, fast_coefficients_from ls g kern nn train targets = Ok C /\
    shape C = (if (r =? 1)%nat then [N; w] else [N; w; r]) /\
    (forall c j s, (c < N)%nat -> (j < w)%nat -> (s < r)%nat ->
       at_ C (if (r =? 1)%nat then [c; j] else [c; j; s]) = coef c j s) /\
    (forall c s, (c < N)%nat -> (s < r)%nat ->
       solves w (nbr_matrix k (gp_noise g) train q c) (fun j => coef c j s) (fun j => at_ targets [q c j; s])).
Proof.
  intros Hk Hd HF HT Hnn HN Hw Hf Hns.
  destruct (target_tensor targets nn N N w q r HT Hnn) as (T & ET & ST & HTv).
  destruct (pairwise_kernel F kern k train nn N N w q Hk Hd HF Hnn) as (pw & Kin & Epw & EK & SK & HKv).
  assert (HKx : forall c, (c < N)%nat -> forall i j, (i < w)%nat -> (j < w)%nat ->
     noisy (gp_noise g) Kin c i j = nbr_matrix k (gp_noise g) train q c i j).
  { intros c Hc i j Hi Hj. unfold noisy, nbr_matrix, plus_diag, rowmat. rewrite HKv; auto. }
  destruct (solve3 ls Hls (gp_noise g) Kin T N w r Hf SK ST) as (K & X & EP & EX & SX & HX).
  { intros c Hc. apply (nonsingular_ext w (nbr_matrix k (gp_noise g) train q c)); auto.
    intros; symmetry; auto. }
  exists (squeeze X), (fun c j s => at_ X [c; j; s]). split.
  { unfold fast_coefficients_from. rewrite ET, Epw. cbn [bind]. rewrite EK; cbn [bind].
    unfold gp_fast_coefficients. rewrite EP; cbn [bind]. unfold fast_precompute, ndim. rewrite ST.
    cbn [List.length Nat.eqb]. rewrite EX. reflexivity. }
  assert (H1 : (N =? 1)%nat = false) by (apply Nat.eqb_neq; auto).
  assert (H2 : (w =? 1)%nat = false) by (apply Nat.eqb_neq; auto).
  split.
  { unfold squeeze; cbn [shape]. rewrite SX. unfold squeeze_shape. cbn [filter]. rewrite H1, H2. cbn [negb].
    destruct (r =? 1)%nat; reflexivity. }
  split.
  - intros c j s Hc Hj Hs. unfold squeeze; cbn [at_]. rewrite SX. f_equal.
    cbn [unsqueeze_idx]. rewrite H1, H2. destruct (Nat.eqb_spec r 1) as [->|]; [|reflexivity].
    cbn. replace s with O by lia. reflexivity.
  - intros c s Hc Hs. apply (solves_ext w (noisy (gp_noise g) Kin c)); [apply HKx; auto|].
    intros i Hi. rewrite (HX c s Hc Hs i Hi). apply HTv; auto.
Qed.

Lemma predict_from F kern k test train (sel : nd Z) cl C coef M N w q r c :
  pointwise_kernel F kern k -> dataset test M -> dataset train N -> ndim test = ndim train ->
  feature_count test = F -> feature_count train = F -> M <> 1%nat -> w <> 1%nat ->
  index_matrix sel M w N q -> shape cl = [M] ->
  (forall x, (x < M)%nat -> at_ cl [x] = Z.of_nat (c x) /\ (c x < N)%nat) ->
  shape C = (if (r =? 1)%nat then [N; w] else [N; w; r]) ->
  (forall c j s, (c < N)%nat -> (j < w)%nat -> (s < r)%nat ->
       at_ C (if (r =? 1)%nat then [c; j] else [c; j; s]) = coef c j s) ->
  exists out, fast_posterior_mean_from_indices kern (arange M) sel test train cl C = Ok out /\
    shape out = (if (r =? 1)%nat then [M] else [M; r]) /\
    forall x s, (x < M)%nat -> (s < r)%nat ->
      at_ out (out_idx r x s) = rsum w (fun j => kcov k test train x (q x j) * coef (c x) j s).
Proof.
  intros Hk Hd Hd' Hnd HF HF' HM Hw Hsel Hcl Hc SC HC.
  destruct (crosswise_kernel F kern k test train (arange M) sel M N M w (fun x => x) q)
    as (cw & Kc & Ecw & EK & SK & HKv); auto.
  unfold fast_posterior_mean_from_indices. rewrite Ecw; cbn [bind]. rewrite EK; cbn [bind].
  assert (Htake : exists rest, shape C = N :: rest).
  { rewrite SC. destruct (r =? 1)%nat; eauto. }
  destruct Htake as [rest HCs].
  destruct (take_ok C cl N rest HCs) as (C' & EC' & SC' & HC').
  { intros idx Hi. rewrite Hcl in Hi. apply inb_inv1 in Hi as (x & -> & Hx).
    destruct (Hc x Hx) as [-> Hl]. apply in_range_of_nat; auto. }
  rewrite EC'; cbn [bind].
  assert (SC2 : shape C' = if (r =? 1)%nat then [M; w] else [M; w; r]).
  { rewrite SC', Hcl. rewrite SC in HCs. destruct (r =? 1)%nat; inversion HCs; reflexivity. }
  assert (HCv : forall x j s, (x < M)%nat -> (j < w)%nat -> (s < r)%nat ->
     at_ (atleast_3d C') [x; j; s] = coef (c x) j s).
  { intros x j s Hx Hj Hs. destruct (Hc x Hx) as [Ec Hl].
    assert (Hin : inb (shape cl) [x]) by (rewrite Hcl; apply inb1; auto).
    assert (Hsl : selects N (at_ cl [x]) (c x)) by (rewrite Ec; apply selects_of_nat; auto).
    unfold atleast_3d. rewrite SC2. rewrite <- HC by auto. destruct (Nat.eqb_spec r 1) as [->|]; cbn [at_].
    - apply (HC' [x] [j] (c x) Hin Hsl).
    - apply (HC' [x] [j; s] (c x) Hin Hsl). }
  assert (S3 : shape (atleast_3d C') = [M; w; r]).
  { unfold atleast_3d. rewrite SC2. destruct (Nat.eqb_spec r 1) as [->|]; cbn [shape]; auto. }
  unfold gp_fast_posterior_mean, fast_posterior_mean, einsum_ij_ijk. rewrite SK, S3, !edim_refl. cbn [bind].
  eexists. split; [reflexivity|].
  assert (H1 : (M =? 1)%nat = false) by (apply Nat.eqb_neq; auto).
  split.
  { unfold squeeze; cbn [shape]. unfold squeeze_shape. cbn [filter]. rewrite H1. cbn [negb].
    destruct (r =? 1)%nat; reflexivity. }
  intros x s Hx Hs. unfold squeeze, out_idx; cbn [at_ shape].
  assert (E : unsqueeze_idx [M; r] (if (r =? 1)%nat then [x] else [x; s]) = [x; s]).
  { cbn [unsqueeze_idx]. rewrite H1. destruct (Nat.eqb_spec r 1) as [->|]; [|reflexivity].
    cbn. replace s with O by lia. reflexivity. }
  rewrite E. apply rsum_ext. intros j Hj. rewrite !eix_lt by auto.
  rewrite HCv by auto. rewrite HKv by auto. reflexivity.
Qed.

Lemma first_column_ok test_nn M w N p : index_matrix test_nn M (S w) N p ->
  exists cl, first_column test_nn = Ok cl /\ shape cl = [M] /\
    forall x, (x < M)%nat -> at_ cl [x] = Z.of_nat (p x O) /\ (p x O < N)%nat.
Proof.
  intros [Hs H]. unfold first_column. rewrite Hs. eexists. split; [reflexivity|]. split; [reflexivity|].
  intros x Hx. cbn [at_ app]. apply H; auto; lia.
Qed.

(** What fast_posterior_mean_any computes, for every data set. *)
Lemma any_value g F kern k nn test_nn test train targets N M w w' q p r :
  pointwise_kernel F kern k -> dataset train N -> shape test = [M; F] -> ndim train = 2%nat ->
  feature_count train = F -> shape targets = [N; r] ->
  index_matrix nn N (S w) N q -> index_matrix test_nn M (S w') N p ->
  N <> 1%nat -> M <> 1%nat -> (S w <> 1)%nat -> noise_fits (gp_noise g) N (S w) ->
  (forall c, (c < N)%nat -> nonsingular (S w) (nbr_matrix k (gp_noise g) train (with_self q) c)) ->
  exists out coef, fast_posterior_mean_any ls g kern nn test_nn test train targets = Ok out /\
    shape out = (if (r =? 1)%nat then [M] else [M; r]) /\
    (forall c s, (c < N)%nat -> (s < r)%nat ->
       solves (S w) (nbr_matrix k (gp_noise g) train (with_self q) c) (fun j => coef c j s)
              (fun j => at_ targets [with_self q c j; s])) /\
    (forall x s, (x < M)%nat -> (s < r)%nat -> at_ out (out_idx r x s) =
       rsum (S w) (fun j => kcov k test train x (with_self (with_self q) (p x O) j) * coef (p x O) j s)).
Proof.
  intros Hk Hd Htest Hnd HF HT Hnn Htnn HN HM Hw Hf Hns.
  pose proof (update_matrix nn N w N q Hnn ltac:(lia)) as H1.
  pose proof (update_matrix _ N w N _ H1 ltac:(lia)) as H2.
  destruct (coefficients_from g F kern k train targets _ N (S w) _ r Hk Hd HF HT H1 HN Hw Hf Hns)
    as (C & coef & EC & SC & HC & Hs).
  destruct (first_column_ok test_nn M w' N p Htnn) as (cl & Ecl & Scl & Hcl).
  destruct (take_matrix _ N (S w) N _ cl M (fun x => p x O) H2 Scl Hcl) as (sel & Esel & Hsel).
  destruct (predict_from F kern k test train sel cl C coef M N (S w) (fun x j => with_self (with_self q) (p x O) j) r (fun x => p x O) Hk) as (out & Eo & So & Ho);
    try exact Hsel; auto.
  { right. eauto. }
  { unfold ndim. rewrite Htest. unfold ndim in Hnd. rewrite Hnd. reflexivity. }
  { unfold feature_count. rewrite Htest. reflexivity. }
  exists out, coef. split.
  { unfold fast_posterior_mean_any, make_fast_regressor. rewrite EC. cbn [bind].
    rewrite Ecl; cbn [bind]. rewrite Esel; cbn [bind]. rewrite Htest. exact Eo. }
  split; [auto|]. split; [auto|]. exact Ho.
Qed.

(** The workflow assembled with a single update: coefficients and kernel values agree, and the
    result is the kriging prediction from the closest training row's neighbourhood. *)
Lemma make_fast_ok nn train targets N w : dataset train N -> shape nn = [N; w] ->
  make_fast_predict_tensors nn train targets =
  (let! pw := pairwise_tensor train (fast_nn_update nn) in
   let! tg := take targets (fast_nn_update nn) in Ok (pw, tg)).
Proof.
  intros Hd Hs. unfold make_fast_predict_tensors. rewrite Hs.
  destruct Hd as [Hd|[f Hd]]; rewrite Hd, Nat.eqb_refl; reflexivity.
Qed.

Lemma make_fast_row_mismatch nn train (targets : nd R) n k N : dataset train N -> shape nn = [n; k] -> n <> N ->
  make_fast_predict_tensors nn train targets = Err ValueError.
Proof.
  intros Hd Hs Hn. unfold make_fast_predict_tensors. rewrite Hs.
  destruct Hd as [Hd|[f Hd]]; rewrite Hd, (proj2 (Nat.eqb_neq n N) Hn); reflexivity.
Qed.

Lemma manual_value g F kern k nn_coef nn_pred test_nn test train targets N M w w' q q' p r :
  pointwise_kernel F kern k -> dataset test M -> dataset train N -> ndim test = ndim train ->
  feature_count test = F -> feature_count train = F -> shape targets = [N; r] ->
  index_matrix nn_coef N (S w) N q -> index_matrix nn_pred N (S w) N q' ->
  index_matrix test_nn M (S w') N p ->
  N <> 1%nat -> M <> 1%nat -> (S w <> 1)%nat -> noise_fits (gp_noise g) N (S w) ->
  (forall c, (c < N)%nat -> nonsingular (S w) (nbr_matrix k (gp_noise g) train (with_self q) c)) ->
  exists out coef, manual_fast_workflow ls g kern nn_coef nn_pred test_nn test train targets = Ok out /\
    shape out = (if (r =? 1)%nat then [M] else [M; r]) /\
    (forall c s, (c < N)%nat -> (s < r)%nat ->
       solves (S w) (nbr_matrix k (gp_noise g) train (with_self q) c) (fun j => coef c j s)
              (fun j => at_ targets [with_self q c j; s])) /\
    (forall x s, (x < M)%nat -> (s < r)%nat -> at_ out (out_idx r x s) =
       rsum (S w) (fun j => kcov k test train x (q' (p x O) j) * coef (p x O) j s)).
Proof.
  intros Hk Hd Hd' Hnd HF HF' HT Hnn Hpr Htnn HN HM Hw Hf Hns.
  pose proof (update_matrix nn_coef N w N q Hnn ltac:(lia)) as H1.
  destruct (coefficients_from g F kern k train targets _ N (S w) _ r Hk Hd' HF' HT H1 HN Hw Hf Hns)
    as (C & coef & EC & SC & HC & Hs).
  destruct (first_column_ok test_nn M w' N p Htnn) as (cl & Ecl & Scl & Hcl).
  destruct (take_matrix _ N (S w) N _ cl M (fun x => p x O) Hpr Scl Hcl) as (sel & Esel & Hsel).
  destruct (predict_from F kern k test train sel cl C coef M N (S w) (fun x j => q' (p x O) j) r (fun x => p x O) Hk) as (out & Eo & So & Ho);
    try exact Hsel; auto.
  exists out, coef. split.
  { unfold manual_fast_workflow. rewrite (make_fast_ok nn_coef train targets N (S w)) by (try exact (proj1 Hnn); auto).
    unfold fast_coefficients_from in EC.
    destruct (take targets (fast_nn_update nn_coef)) as [T|]; cbn [bind] in EC; [|discriminate].
    destruct (pairwise_tensor train (fast_nn_update nn_coef)) as [pw|]; cbn [bind] in *; [|discriminate].
    destruct (kern pw) as [Kin|]; cbn [bind] in *; [|discriminate].
    rewrite EC; cbn [bind]. rewrite Ecl; cbn [bind]. rewrite Esel; cbn [bind].
    destruct Hd as [Hd|[f Hd]]; rewrite Hd; exact Eo. }
  split; [auto|]. split; [auto|]. exact Ho.
Qed.

Lemma kcov_sym_matrix k m train q c w :
  (forall i j, kcov k train train i j = kcov k train train j i) -> symmetric w (nbr_matrix k m train q c).
Proof.
  intros H i j Hi Hj. unfold nbr_matrix, plus_diag. rewrite (H (q c i)), (Nat.eqb_sym j i).
  destruct (Nat.eqb_spec i j); subst; auto.
Qed.

Lemma manual_kriging g F kern k nn test_nn test train targets N M w w' q p r :
  pointwise_kernel F kern k -> dataset test M -> dataset train N -> ndim test = ndim train ->
  feature_count test = F -> feature_count train = F -> shape targets = [N; r] ->
  index_matrix nn N (S w) N q -> index_matrix test_nn M (S w') N p ->
  N <> 1%nat -> M <> 1%nat -> (S w <> 1)%nat -> noise_fits (gp_noise g) N (S w) ->
  (forall i j, kcov k train train i j = kcov k train train j i) ->
  (forall c, (c < N)%nat -> nonsingular (S w) (nbr_matrix k (gp_noise g) train (with_self q) c)) ->
  exists out, manual_fast_workflow ls g kern nn (fast_nn_update nn) test_nn test train targets = Ok out /\
    shape out = (if (r =? 1)%nat then [M] else [M; r]) /\
    forall x s, (x < M)%nat -> (s < r)%nat ->
      kriging (S w) (nbr_matrix k (gp_noise g) train (with_self q) (p x O))
        (fun j => kcov k test train x (with_self q (p x O) j))
        (fun j => at_ targets [with_self q (p x O) j; s]) (at_ out (out_idx r x s)).
Proof.
  intros Hk Hd Hd' Hnd HF HF' HT Hnn Htnn HN HM Hw Hf Hsym Hns.
  pose proof (update_matrix nn N w N q Hnn ltac:(lia)) as H1.
  destruct (manual_value g F kern k nn (fast_nn_update nn) test_nn test train targets N M w w' q (with_self q) p r)
    as (out & coef & E & So & Hc & Ho); auto.
  exists out. split; [auto|]. split; [auto|]. intros x s Hx Hs.
  assert (Hp : (p x O < N)%nat) by (destruct Htnn as [_ H]; apply H; auto; lia).
  destruct Hls as [Hl1 Hl2].
  destruct (proj1 (Hl2 (S w) 1%nat (nbr_matrix k (gp_noise g) train (with_self q) (p x O))
     (fun j _ => kcov k test train x (with_self q (p x O) j))) (Hns _ Hp)) as [W HW].
  pose proof (Hl1 _ _ _ _ _ HW O ltac:(lia)) as Hsol.
  exists (fun j => W j O). split; [exact Hsol|].
  rewrite Ho by auto.
  rewrite (symmetric_adjoint (S w) _ _ _ _ _ (kcov_sym_matrix k (gp_noise g) train (with_self q) (p x O) (S w) Hsym) Hsol (Hc _ s Hp Hs)).
  unfold dot. reflexivity.
Qed.

(** Ordinary prediction from indices. *)
Lemma from_indices_kriging g F kern k ix nn test train targets N M t w q c r :
  pointwise_kernel F kern k -> dataset test M -> dataset train N -> ndim test = ndim train ->
  feature_count test = F -> feature_count train = F -> shape targets = [N; r] ->
  shape ix = [t] -> (forall x, (x < t)%nat -> at_ ix [x] = Z.of_nat (c x) /\ (c x < M)%nat) ->
  index_matrix nn t w N q -> r <> w -> noise_fits (gp_noise g) t w ->
  (forall x, (x < t)%nat -> nonsingular w (nbr_matrix k (gp_noise g) train q x)) ->
  exists out, posterior_mean_from_indices ls g kern ix nn test train targets = Ok out /\ shape out = [t; r] /\
    forall x s, (x < t)%nat -> (s < r)%nat ->
      kriging w (nbr_matrix k (gp_noise g) train q x) (fun j => kcov k test train (c x) (q x j))
        (fun j => at_ targets [q x j; s]) (at_ out [x; s]).
Proof.
  intros Hk Hd Hd' Hnd HF HF' HT Hix Hc Hnn Hr Hf Hns.
  destruct (crosswise_kernel F kern k test train ix nn M N t w c q) as (cw & Kc & Ecw & EKc & SKc & HKc); auto.
  destruct (pairwise_kernel F kern k train nn N t w q Hk Hd' HF' Hnn) as (pw & Kin & Epw & EK & SK & HKv).
  destruct (target_tensor targets nn N t w q r HT Hnn) as (T & ET & ST & HTv).
  assert (HKx : forall x, (x < t)%nat -> forall i j, (i < w)%nat -> (j < w)%nat ->
     noisy (gp_noise g) Kin x i j = nbr_matrix k (gp_noise g) train q x i j).
  { intros x Hx i j Hi Hj. unfold noisy, nbr_matrix, plus_diag, rowmat. rewrite HKv; auto. }
  destruct (c17_mean3 ls Hls g None Kin Kc T t w r Hf SK SKc ST Hr) as (out & Eo & So & Ho).
  { intros x Hx. apply (nonsingular_ext w (nbr_matrix k (gp_noise g) train q x)); auto.
    intros; symmetry; apply HKx; auto. }
  exists out. split.
  { unfold posterior_mean_from_indices. rewrite Ecw, Epw, ET; cbn [bind]. rewrite EK, EKc; cbn [bind]. exact Eo. }
  split; [auto|]. intros x s Hx Hs. destruct (Ho x s Hx Hs) as (wv & Hw & Hv). exists wv. split.
  - apply (solves_ext w (noisy (gp_noise g) Kin x)); [apply HKx; auto|].
    intros i Hi. etransitivity; [exact (Hw i Hi)|]. unfold rowvec. apply HKc; auto.
  - rewrite Hv. unfold dot. apply rsum_ext. intros j Hj. rewrite HTv; auto.
Qed.
End T.
