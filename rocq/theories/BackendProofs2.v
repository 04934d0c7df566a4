(** jax and torch against numpy: fast prediction, scale, kernels, losses. *)
From Coq Require Import Lia Lra.
From Verif Require Import Base BaseFacts NdModel NdFacts RSum LinAlgModel LinAlgSpec LinAlgFacts GPModel GPSpec GPProofs
  NoiseModel MuyGPSProofs TensorModel KernelModel NamedModel LossModel LossSpec LossProofs ShearModel FastProofs CongProofs MemProofs MemLemmas
  BackendModel BackendProofs.
Local Open Scope R_scope.

(** ** Fast prediction *)
Lemma unsqueeze_inb sh idx : inb (squeeze_shape sh) idx -> inb sh (unsqueeze_idx sh idx).
Proof.
  revert idx; induction sh as [|d sh IH]; intros idx H; cbn in *; [exact inb_nil|].
  destruct (Nat.eqb_spec d 1) as [->|Hd]; cbn [negb] in H.
  - apply inb_cons. split; [lia|]. apply IH; exact H.
  - apply inb_inv_cons in H as (i & l & -> & Hi & Hl). apply inb_cons. split; [exact Hi|]. apply IH; exact Hl.
Qed.

Lemma squeeze_cong {A} (t t' : nd A) : nd_eq t t' -> nd_eq (squeeze t) (squeeze t').
Proof.
  intros [HS H]. split; cbn [shape squeeze at_]; [rewrite HS; reflexivity|].
  intros idx Hi. rewrite <- HS. apply H. apply unsqueeze_inb. exact Hi.
Qed.

Lemma noisy_null Kin x i j : noisy NullNoise Kin x i j = rowmat Kin x i j.
Proof. unfold noisy, plus_diag, noise_at. destruct (i =? j)%nat; ring. Qed.

Section F.
Variable ls : lsolver.
Hypothesis Hls : exact_solver ls.

Lemma bk_fast3 Kin Kcross T b n r : shape Kin = [b; n; n] -> shape Kcross = [b; n] -> shape T = [b; n; r] ->
  (forall x, (x < b)%nat -> symmetric n (rowmat Kin x)) ->
  (forall x, (x < b)%nat -> nonsingular n (rowmat Kin x)) ->
  exists C F M, bk_fast_precompute ls Kin T = Ok C /\ fast_posterior_mean Kcross C = Ok F /\
    jx_posterior_mean ls Kin Kcross T = Ok M /\ shape M = [b; r] /\ nd_eq F (squeeze M).
Proof.
  intros SK SC ST Hsym Hns.
  destruct (jx_mean_resp_spec ls Hls Kin Kcross T b n r SK SC ST Hns) as (M & EM & SM & HM).
  destruct (solve3 ls Hls NullNoise Kin T b n r I SK ST) as (K & X & EK & EX & SX & HX).
  { intros x Hx. apply (proj1 (nonsingular_cong n (rowmat Kin x) (noisy NullNoise Kin x) (fun i j _ _ => eq_sym (noisy_null Kin x i j)))).
    apply Hns; auto. }
  cbn in EK. injection EK as <-.
  unfold bk_fast_precompute, ndim. rewrite ST. cbn [List.length Nat.eqb].
  destruct (fast_mean3 Kcross X b n r SC SX) as (t0 & E0 & S0 & H0).
  exists X, (squeeze t0), M. split; [exact EX|]. split; [unfold fast_posterior_mean; rewrite E0; reflexivity|].
  split; [exact EM|]. split; [exact SM|]. apply squeeze_cong. split; [congruence|].
  intros idx Hi. rewrite S0 in Hi. apply inb_inv2 in Hi as (x & s & -> & Hx & Hs). rewrite H0 by auto.
  destruct (HM x s Hx Hs) as (w & Hw & ->). symmetry.
  apply (symmetric_adjoint n (rowmat Kin x) w (fun j => at_ X [x; j; s]) (rowvec Kcross x) (fun j => at_ T [x; j; s])); auto.
  apply (solves_ext n (noisy NullNoise Kin x)); auto.
  intros; apply noisy_null.
Qed.

Lemma jx_mean_flat_spec Kin Kcross T b n : shape Kin = [b; n; n] -> shape Kcross = [b; n] -> shape T = [b; n] ->
  (forall x, (x < b)%nat -> nonsingular n (rowmat Kin x)) ->
  exists M, jx_posterior_mean ls Kin Kcross T = Ok M /\ shape M = [b] /\
    forall x, (x < b)%nat -> kriging n (rowmat Kin x) (rowvec Kcross x) (rowvec T x) (at_ M [x]).
Proof.
  intros SK SC ST Hns.
  assert (Hns' : forall x, inb [b] x -> nonsingular (nprod [n]) (Kmat Kin [n] x)).
  { intros x Hx. apply inb_inv1 in Hx as (x0 & -> & Hx). rewrite nprod1.
    apply (proj1 (nonsingular_cong n (rowmat Kin x0) (Kmat Kin [n] [x0]) ltac:(intros; unfold Kmat, rowmat; cbn [unravel app]; rewrite !nprod0, !Nat.div_1_r; reflexivity))).
    apply Hns; auto. }
  assert (Hne : [n] <> []) by discriminate.
  destruct (posterior_mean_total ls Hls Kin Kcross T [b] [n] [] [] Hne SK SC ST (no_coinc_nil n) Hns') as [P EP].
  pose proof (jx_mean_flat_agree ls Hls Kin Kcross T b n SK SC ST) as HA. rewrite EP in HA.
  destruct (jx_posterior_mean ls Kin Kcross T) as [M|]; [|contradiction]. exists M. split; [reflexivity|].
  destruct (posterior_mean_correct ls Hls Kin Kcross T [b] [n] [] [] P Hne SK SC ST (no_coinc_nil n) EP) as [SP HP].
  cbn [same_outcome] in HA. destruct HA as [SM HM]. cbn [app] in SP. rewrite SP in SM. split; [exact SM|].
  intros x Hx. destruct (HP [x] [] (inb1 _ _ Hx) inb_nil) as (w & Hw & Hv). exists w.
  rewrite nprod1 in *. split.
  - intros i Hi. specialize (Hw i Hi). cbn [unravel app] in Hw. rewrite nprod0, Nat.div_1_r in Hw. unfold rowvec. rewrite <- Hw.
    apply rsum_ext. intros j Hj. unfold Kmat, rowmat. cbn [unravel app]. rewrite !nprod0, !Nat.div_1_r. reflexivity.
  - rewrite HM by (rewrite SM; apply inb1; auto). specialize (Hv [] inb_nil). cbn [app] in Hv. rewrite Hv.
    unfold dot. apply rsum_ext. intros j Hj. cbn [unravel app]. rewrite nprod0, Nat.div_1_r. reflexivity.
Qed.

Lemma bk_fast2 Kin Kcross T b n : shape Kin = [b; n; n] -> shape Kcross = [b; n] -> shape T = [b; n] ->
  (forall x, (x < b)%nat -> symmetric n (rowmat Kin x)) ->
  (forall x, (x < b)%nat -> nonsingular n (rowmat Kin x)) ->
  exists C F M, bk_fast_precompute ls Kin T = Ok C /\ fast_posterior_mean Kcross C = Ok F /\
    jx_posterior_mean ls Kin Kcross T = Ok M /\ shape M = [b] /\ nd_eq F (squeeze M).
Proof.
  intros SK SC ST Hsym Hns.
  destruct (jx_mean_flat_spec Kin Kcross T b n SK SC ST Hns) as (M & EM & SM & HM).
  assert (SE : shape (expand_last T) = [b; n; 1%nat]) by (cbn [shape expand_last]; rewrite ST; reflexivity).
  destruct (solve3 ls Hls NullNoise Kin (expand_last T) b n 1 I SK SE) as (K & X & EK & EX & SX & HX).
  { intros x Hx. apply (proj1 (nonsingular_cong n (rowmat Kin x) (noisy NullNoise Kin x) (fun i j _ _ => eq_sym (noisy_null Kin x i j)))).
    apply Hns; auto. }
  cbn in EK. injection EK as <-.
  unfold bk_fast_precompute, ndim. rewrite ST. cbn [List.length Nat.eqb]. rewrite EX. cbn [bind].
  destruct (reshape_ok X [b; n]) as [C EC]. { rewrite SX, !nprod_cons, nprod0. lia. }
  rewrite EC. pose proof (reshape_shape _ _ _ EC) as SCc.
  assert (HC : forall x j, (x < b)%nat -> (j < n)%nat -> at_ C [x; j] = at_ X [x; j; O]).
  { intros x j Hx Hj. apply (reshape_at _ _ _ _ _ EC); rewrite SX; [apply inb3; lia|].
    cbn [ravel]. rewrite !nprod_cons, nprod0. lia. }
  assert (S3 : shape (atleast_3d C) = [b; n; 1%nat]). { unfold atleast_3d. rewrite SCc. reflexivity. }
  destruct (fast_mean3 Kcross (atleast_3d C) b n 1 SC S3) as (t0 & E0 & S0 & H0).
  rewrite (atleast_3d_3 _ b n 1 S3) in E0.
  exists C, (squeeze t0), M. split; [reflexivity|]. split; [unfold fast_posterior_mean; rewrite E0; reflexivity|].
  split; [exact EM|]. split; [exact SM|].
  assert (HV : forall x, (x < b)%nat -> at_ t0 [x; O] = at_ M [x]).
  { intros x Hx. rewrite H0 by auto. destruct (HM x Hx) as (w & Hw & ->). symmetry.
    rewrite (rsum_ext n _ (fun j => rowvec Kcross x j * at_ X [x; j; O])).
    2:{ intros j Hj. unfold atleast_3d. rewrite SCc. cbn [at_]. rewrite HC by auto. reflexivity. }
    apply (symmetric_adjoint n (rowmat Kin x) w (fun j => at_ X [x; j; O]) (rowvec Kcross x) (rowvec T x)); auto.
    intros i Hi. specialize (HX x O Hx ltac:(lia) i Hi). unfold expand_last in HX at 1. cbn [at_ removelast] in HX.
    unfold rowvec. rewrite <- HX. apply rsum_ext. intros j Hj. rewrite noisy_null. reflexivity. }
  split; cbn [shape squeeze at_]; rewrite S0, SM.
  - cbn. destruct (Nat.eqb_spec b 1); reflexivity.
  - cbn [squeeze_shape filter]. destruct (Nat.eqb_spec b 1) as [->|Hb]; cbn [negb Nat.eqb].
    + intros idx Hi. apply inb_inv_nil in Hi as ->. cbn. apply HV. lia.
    + intros idx Hi. apply inb_inv1 in Hi as (i & -> & Hi). cbn [unsqueeze_idx Nat.eqb].
      destruct (Nat.eqb_spec b 1); [lia|]. apply HV; auto.
Qed.

(** ** Scale *)
Lemma unnorm_atleast K T : analytic_scale_unnormalized ls K (atleast_3d T) = analytic_scale_unnormalized ls K T.
Proof.
  unfold analytic_scale_unnormalized. replace (atleast_3d (atleast_3d T)) with (atleast_3d T); [reflexivity|].
  unfold atleast_3d at 1. unfold atleast_3d at 2. unfold atleast_3d.
  destruct (shape T) as [|a [|c [|d e]]] eqn:E; try reflexivity. cbn zeta. rewrite E. reflexivity.
Qed.

Lemma expand_atleast {A} (T : nd A) b n : shape T = [b; n] -> nd_eq (expand_last T) (atleast_3d T).
Proof.
  intros S. unfold atleast_3d. rewrite S. split; cbn [shape expand_last]; rewrite S; [reflexivity|].
  intros idx Hi. apply inb_inv3 in Hi as (x & i & j & -> & _). reflexivity.
Qed.

Lemma jx_scale3 Kin T b n : shape Kin = [b; n; n] -> shape T = [b; n] ->
  jx_analytic_scale ls Kin T = analytic_scale ls Kin T.
Proof.
  intros SK ST. unfold jx_analytic_scale, analytic_scale, ndim. rewrite SK, ST. cbn [List.length Nat.eqb Nat.sub Nat.div Nat.divmod fst Nat.add skipn firstn].
  rewrite !nprod1. cbn [app].
  destruct (reshape_same Kin _ SK) as (K' & -> & HK). cbn [bind].
  destruct (reshape_expand T b n ST) as (T' & -> & HT). cbn [bind].
  rewrite <- (unnorm_atleast Kin T).
  rewrite (analytic_unnorm_cong ls Kin K' (atleast_3d T) T' Hls (nd_eq_sym _ _ HK)); [reflexivity|].
  apply nd_eq_sym. eapply nd_eq_trans; [exact HT|]. eapply expand_atleast; eauto.
Qed.

Lemma jx_scale_trailing Kin T b n : shape Kin = [b; n; n] -> shape T = [b; n; 1%nat] ->
  jx_analytic_scale ls Kin T = Err AssertionError.
Proof. intros SK ST. unfold jx_analytic_scale, ndim. rewrite SK, ST. reflexivity. Qed.

Lemma jx_scale5 Kin T b m n s : shape Kin = [b; m; n; m; n] -> shape T = [b; m; n] -> (0 < b)%nat -> (0 < m)%nat -> (0 < n)%nat ->
  analytic_scale ls Kin T = Ok s -> jx_analytic_scale ls Kin T = Ok (INR n * s).
Proof.
  intros SK ST Hb Hm Hn. unfold jx_analytic_scale, analytic_scale, ndim. rewrite SK, ST.
  cbn [List.length Nat.eqb Nat.sub Nat.div Nat.divmod fst Nat.add skipn firstn].
  rewrite nprod1, nprod2. cbn [app].
  destruct (reshape_ok Kin [b; m * n; m * n]%nat) as [K EK]. { rewrite SK, !nprod_cons, nprod0. lia. }
  destruct (reshape_ok T [b; m * n]%nat) as [t ET]. { rewrite ST, !nprod_cons, nprod0. lia. }
  destruct (reshape_ok T [b; m * n; 1]%nat) as [t' ET']. { rewrite ST, !nprod_cons, nprod0. lia. }
  rewrite EK, ET, ET'. cbn [bind].
  assert (HT : nd_eq (atleast_3d t) t').
  { pose proof (reshape_shape _ _ _ ET) as St. pose proof (reshape_shape _ _ _ ET') as St'.
    unfold atleast_3d. rewrite St. split; cbn [shape at_]; [congruence|].
    intros idx Hi. apply inb_inv3 in Hi as (x & i & j & -> & Hx & Hi & Hj). assert (j = O) by lia. subst j.
    assert (Hin : inb [b; m; n] [x; (i / n)%nat; (i mod n)%nat]).
    { apply inb3; auto; [apply Nat.div_lt_upper_bound; lia|apply Nat.mod_upper_bound; lia]. }
    rewrite (reshape_at T t _ [x; (i / n)%nat; (i mod n)%nat] [x; i] ET), (reshape_at T t' _ [x; (i / n)%nat; (i mod n)%nat] [x; i; O] ET');
      try reflexivity; rewrite ST; auto; cbn [ravel]; rewrite !nprod_cons, nprod0; pose proof (Nat.div_mod i n); nia. }
  rewrite <- (unnorm_atleast K t). rewrite (analytic_unnorm_cong ls K K (atleast_3d t) t' Hls (nd_eq_refl _) HT).
  destruct (analytic_scale_unnormalized ls K t') as [u|]; cbn [bind]; [|discriminate].
  intros E. injection E as <-. f_equal. rewrite !mult_INR.
  assert (INR b <> 0) by (apply not_0_INR; lia). assert (INR m <> 0) by (apply not_0_INR; lia). assert (INR n <> 0) by (apply not_0_INR; lia).
  field. auto.
Qed.

Lemma to_scale Kin T s bs : firstn 1 (shape Kin) = [bs] -> analytic_scale ls Kin T = Ok s ->
  exists t, to_analytic_scale ls Kin T = Ok t /\ shape t = [1%nat] /\ at_ t [O] = s.
Proof.
  intros Sb. unfold to_analytic_scale, analytic_scale. cbn zeta. rewrite Sb. intros H.
  apply bind_ok in H as (K & EK & H). apply bind_ok in H as (t & Et & H). apply bind_ok in H as (u & Eu & H).
  injection H as <-. rewrite EK, Et. cbn [bind].
  unfold analytic_scale_unnormalized in Eu. apply bind_ok in Eu as (sol & Es & Eu). apply bind_ok in Eu as (e & Ee & Eu).
  injection Eu as <-. unfold to_analytic_scale_unnormalized. rewrite Es. cbn [bind]. rewrite Ee. cbn [bind].
  pose proof (reshape_shape _ _ _ Et) as St. cbn [app] in St. set (m := nprod (skipn (1 + (ndim Kin - 1) / 2) (shape Kin))) in *.
  assert (S3 : atleast_3d t = t) by (eapply atleast_3d_3; exact St). rewrite S3 in *.
  assert (Ssol : shape sol = [bs; m; 1%nat]).
  { pose proof (reshape_shape _ _ _ EK) as SK. cbn [app] in SK.
    apply (proj1 (np_solve_inv ls K t sol [bs] m 1 SK St Es)). }
  unfold einsum_ijk_ijk in Ee. rewrite St, Ssol, !edim_refl in Ee. injection Ee as <-.
  eexists. split; [reflexivity|]. split; [reflexivity|]. cbn [at_ ndmap to_sum shape].
  f_equal. rewrite !nprod_cons, nprod0, Nat.mul_1_r. apply rsum_ext. intros q Hq.
  cbn [unravel]. rewrite !nprod_cons, !nprod0. rewrite ?Nat.mul_1_r, ?Nat.div_1_r. reflexivity.
Qed.

End F.

(** ** Kernels *)
Lemma to_kernels gamma kv c x kw : c <> MGen -> to_matern_backend c x = matern_backend gamma kv c x kw.
Proof. destruct c; intros H; try reflexivity. congruence. Qed.

Lemma jx_gen_positive gamma kv kve nu x : 0 < nu -> 0 < x -> 0 < gamma nu ->
  (forall z, 0 < z -> kve nu z = kv nu z * exp z) ->
  jx_gen_entry gamma kve nu x = Fin (gen_entry gamma kv nu x).
Proof.
  intros Hn Hx Hg Hk. unfold jx_gen_entry, gen_entry.
  assert (E : Reqb x 0 = false). { unfold Reqb. destruct (Req_EM_T x 0); [lra|reflexivity]. }
  rewrite E. cbn zeta. f_equal.
  assert (Hz : 0 < sqrt (2 * nu) * x). { apply Rmult_lt_0_compat; auto. apply sqrt_lt_R0. lra. }
  rewrite exp_ln by exact Hg. rewrite (Rabs_pos_eq _ (Rlt_le _ _ Hz)), Hk by exact Hz.
  pose proof (exp_pos (sqrt (2 * nu) * x)). field. split; apply Rgt_not_eq; auto.
Qed.

Lemma jx_gen_gram gamma kv kve nu dists b k : shape dists = [b; k; k] -> 0 < nu -> 0 < gamma nu ->
  (forall z, 0 < z -> kve nu z = kv nu z * exp z) ->
  (forall x i, (x < b)%nat -> (i < k)%nat -> at_ dists [x; i; i] = 0) ->
  (forall x i j, (x < b)%nat -> (i < k)%nat -> (j < k)%nat -> i <> j -> 0 < at_ dists [x; i; j]) ->
  exists t, jx_matern_gen gamma kve dists nu = Ok t /\ shape t = [b; k; k] /\
    forall x i j, (x < b)%nat -> (i < k)%nat -> (j < k)%nat ->
      at_ t [x; i; j] = if (i =? j)%nat then Fin 1 else Fin (gen_entry gamma kv nu (at_ dists [x; i; j])).
Proof.
  intros S Hn Hg Hk Hd Ho. unfold jx_matern_gen. rewrite S. eexists. split; [reflexivity|]. split; [reflexivity|].
  intros x i j Hx Hi Hj. cbn [at_]. destruct (Nat.eqb_spec i j); [reflexivity|].
  apply jx_gen_positive; auto.
Qed.

Lemma jx_gen_cross gamma kv kve nu dists b k : shape dists = [b; k] -> 0 < nu -> 0 < gamma nu ->
  (forall z, 0 < z -> kve nu z = kv nu z * exp z) ->
  (forall x i, (x < b)%nat -> (i < k)%nat -> 0 < at_ dists [x; i]) ->
  exists t, jx_matern_gen gamma kve dists nu = Ok t /\ shape t = [b; k] /\
    forall x i, (x < b)%nat -> (i < k)%nat -> at_ t [x; i] = Fin (gen_entry gamma kv nu (at_ dists [x; i])).
Proof.
  intros S Hn Hg Hk Hd. unfold jx_matern_gen. rewrite S. eexists. split; [reflexivity|]. split; [exact S|].
  intros x i Hx Hi. cbn [at_ ndmap]. apply jx_gen_positive; auto.
Qed.

Lemma jx_gen_cross_zero gamma kve nu dists b k : shape dists = [b; k] ->
  forall x i, (x < b)%nat -> (i < k)%nat -> at_ dists [x; i] = 0 ->
  exists t, jx_matern_gen gamma kve dists nu = Ok t /\ at_ t [x; i] = NaN.
Proof.
  intros S x i Hx Hi E. unfold jx_matern_gen. rewrite S. eexists. split; [reflexivity|].
  cbn [at_ ndmap]. rewrite E. unfold jx_gen_entry, Reqb. destruct (Req_EM_T 0 0); [reflexivity|congruence].
Qed.

Lemma bk_shear33 l diffs t : bk_shear_33_fn l diffs = Ok t -> shear_33_fn l diffs = Ok (squeeze t).
Proof.
  unfold bk_shear_33_fn, shear_33_fn, bk_shear_frame, shear_frame.
  destruct (rev (shape diffs)) as [|d [|m [|n r]]]; try discriminate.
  destruct (d <? 2)%nat; try discriminate. intros E. injection E as <-. reflexivity.
Qed.

Lemma bk_shear33_same l diffs t : bk_shear_33_fn l diffs = Ok t -> (forall d, In d (shape t) -> d <> 1%nat) ->
  exists t', shear_33_fn l diffs = Ok t' /\ nd_eq t' t.
Proof.
  intros E H. exists (squeeze t). split; [apply bk_shear33; exact E|].
  destruct (squeeze_none t H) as [H1 H2]. split; [exact H1|]. rewrite H1. exact H2.
Qed.

(** ** Losses *)
Lemma total_rsum_swap sh b : forall f : nat -> list nat -> R,
  rsum b (fun i => total sh (f i)) = total sh (fun l => rsum b (fun i => f i l)).
Proof.
  induction sh as [|d sh IH]; intros f; cbn [total]; [reflexivity|].
  rewrite rsum_swap. apply rsum_ext. intros i Hi. apply (IH (fun k l => f k (i :: l))).
Qed.

Lemma to_sum_total t b rest : shape t = b :: rest -> shape (to_sum t) = rest /\ nd_sum t = total rest (at_ (to_sum t)).
Proof.
  intros S. unfold to_sum. rewrite S. split; [reflexivity|]. rewrite nd_sum_total, S. cbn [total at_].
  apply total_rsum_swap.
Qed.

Lemma total_div sh c f : total sh (fun i => f i / c) = total sh f / c.
Proof.
  rewrite (total_ext sh (fun i => f i / c) (fun i => / c * f i)) by (intros; unfold Rdiv; ring).
  rewrite total_scal. unfold Rdiv. ring.
Qed.

Lemma to_mse_spec p t b rest : shape p = b :: rest -> shape t = b :: rest ->
  exists v, to_mse p t = Ok v /\ shape v = rest /\ mse_fn p t = Ok (total rest (at_ v)) /\
    forall l, inb rest l -> at_ v l = rsum b (fun i => residual_sq p t (i :: l)) / INR (nprod (b :: rest)).
Proof.
  intros Sp St. unfold to_mse, mse_fn, to_mse_unnormalized, mse_unnormalized.
  destruct (bop_same Rminus p t ltac:(congruence)) as (r & -> & Sr & Ar). cbn [bind].
  assert (S2 : shape (ndmap (fun x => x ^ 2) r) = b :: rest) by (cbn [shape ndmap]; congruence).
  destruct (to_sum_total _ b rest S2) as [S3 E3].
  eexists. split; [reflexivity|]. cbn [shape ndmap]. split; [exact S3|]. split.
  - rewrite E3. cbn [at_]. f_equal. symmetry. apply total_div.
  - intros l Hl. cbn [at_]. rewrite Sp. unfold to_sum. rewrite S2. cbn [at_ ndmap].
    f_equal. apply rsum_ext. intros i Hi. rewrite Ar; [reflexivity|]. rewrite Sp. apply inb_cons; auto.
Qed.

Lemma to_huber_spec p t d b rest : shape p = b :: rest -> shape t = b :: rest ->
  exists v, to_pseudo_huber p t d = Ok v /\ shape v = rest /\ pseudo_huber_fn p t d = Ok (total rest (at_ v)).
Proof.
  intros Sp St. unfold to_pseudo_huber, pseudo_huber_fn.
  destruct (bop_same Rminus t p ltac:(congruence)) as (r & -> & Sr & Ar). cbn [bind].
  match goal with |- context [to_sum ?u] => destruct (to_sum_total u b rest ltac:(cbn [shape ndmap]; congruence)) as [S3 E3] end.
  eexists. split; [reflexivity|]. cbn [shape ndmap]. split; [exact S3|].
  rewrite E3. cbn [at_]. f_equal. symmetry. apply (total_scal rest (d ^ 2)).
Qed.

Lemma jx_lool_eq ls sld p t v s b : shape v = [b] -> jx_lool ls p t v s = lool_fn ls sld p t v s.
Proof.
  intros S. unfold jx_lool, jx_lool_unscaled, bk_lool_terms, lool_fn, lool_fn_unscaled, ndim. cbn [shape ndmap]. rewrite S.
  cbn [List.length Nat.eqb].
  destruct (bop Rminus p t); [|reflexivity]. cbn [bind]. destruct (bop Rdiv _ _); [|reflexivity]. cbn [bind].
  reflexivity.
Qed.

Lemma to_lool_spec ls sld p t v s b : vec3 p t v b ->
  exists u, to_lool ls p t v s = Ok u /\ shape u = [] /\ lool_fn ls sld p t v s = Ok (at_ u []).
Proof.
  intros (Sp & St & Sv). rewrite <- (jx_lool_eq ls sld p t v s b Sv).
  unfold to_lool, to_lool_unscaled, jx_lool, jx_lool_unscaled, bk_lool_terms, ndim. cbn [shape ndmap]. rewrite Sv.
  cbn [List.length Nat.eqb].
  destruct (bop_same Rminus p t ltac:(congruence)) as (r & -> & Sr & Ar). cbn [bind].
  destruct (bop_same Rdiv (ndmap (fun x => x ^ 2) r) (ndmap (Rmult s) v) ltac:(cbn [shape ndmap]; congruence)) as (q & -> & Sq & Aq). cbn [bind].
  destruct (bop_same Rplus q (ndmap ln (ndmap (Rmult s) v)) ltac:(cbn [shape ndmap] in *; congruence)) as (w & -> & Sw & Aw). cbn [bind].
  cbn [shape ndmap] in *.
  destruct (to_sum_total w b [] ltac:(congruence)) as [S3 E3].
  eexists. split; [reflexivity|]. split; [exact S3|]. rewrite E3. reflexivity.
Qed.

Lemma to_looph_spec p t v s d b : vec3 p t v b ->
  exists u, to_looph p t v s d = Ok u /\ shape u = [] /\ looph_fn p t v s d = Ok (at_ u []).
Proof.
  intros (Sp & St & Sv). unfold to_looph, to_looph_unscaled, looph_fn, looph_fn_unscaled. cbn [shape ndmap]. rewrite Sv.
  destruct (bop_same Rminus t p ltac:(congruence)) as (r & -> & Sr & Ar). cbn [bind].
  match goal with |- context [bop Rdiv ?a ?c] => destruct (bop_same Rdiv a c ltac:(cbn [shape ndmap]; congruence)) as (q & -> & Sq & Aq) end. cbn [bind].
  match goal with |- context [bop Rplus ?a ?c] => destruct (bop_same Rplus a c ltac:(cbn [shape ndmap] in *; congruence)) as (w & -> & Sw & Aw) end. cbn [bind].
  cbn [shape ndmap] in *.
  destruct (to_sum_total w b [] ltac:(congruence)) as [S3 E3].
  eexists. split; [reflexivity|]. split; [exact S3|]. rewrite E3. reflexivity.
Qed.

(** Block variances: numpy computes a number, jax and torch raise. *)
Lemma bk_lool_block ls p t v s b n : exact_solver ls -> shape p = [b; n] -> shape t = [b; n] -> shape v = [b; n; n] ->
  (forall x, (x < b)%nat -> nonsingular n (fun i j => s * at_ v [x; i; j])) ->
  jx_lool ls p t v s = Err TypeError /\ to_lool ls p t v s = Err TypeError.
Proof.
  intros Hls Sp St Sv Hns.
  assert (H : bk_lool_terms ls p t (ndmap (Rmult s) v) = Err TypeError).
  { unfold bk_lool_terms, ndim. cbn [shape ndmap]. rewrite Sv. cbn [List.length Nat.eqb].
    destruct (bop_same Rminus p t ltac:(congruence)) as (r & -> & Sr & Ar). cbn [bind].
    assert (S3 : shape (atleast_3d r) = [b] ++ [n; 1%nat]). { unfold atleast_3d. rewrite Sr, Sp. reflexivity. }
    assert (SV : shape (ndmap (Rmult s) v) = [b] ++ [n; n]) by exact Sv.
    destruct (np_solve_ok ls _ _ [b] n 1 SV S3) as [X EX].
    { intros x Hx. apply inb_inv1 in Hx as (x0 & -> & Hx).
      apply (proj1 (proj2 Hls n 1%nat _ (slice2 (atleast_3d r) [x0]))). apply (Hns x0 Hx). }
    change (ndmap (Rmult s) v) with (ndmap (Rmult s) v) in EX.
    unfold ndmap in *. rewrite EX. cbn [bind].
    destruct (np_solve_inv ls _ _ _ _ _ _ SV S3 EX) as [SX _].
    assert (SS : shape (swapaxes_last (atleast_3d r)) = [b] ++ [1%nat; n]). { cbn [shape swapaxes_last]. rewrite S3. apply swap_last_app2. }
    destruct (np_matmul_inv _ _ _ _ _ _ SS SX) as (q & -> & _). reflexivity. }
  unfold jx_lool, to_lool, jx_lool_unscaled, to_lool_unscaled. rewrite H. auto.
Qed.

(** Cross entropy. *)
Lemma clip_id eps x : eps <= x <= 1 - eps -> clip eps x = x.
Proof. intros H. unfold clip. rewrite Rmax_left, Rmin_left by lra. reflexivity. Qed.

Lemma softmax_rows b k (P : nd R) : shape P = [b; k] -> (0 < k)%nat -> exists sm, softmax P = Ok sm /\ shape sm = [b; k] /\
  (forall i j, at_ sm [i; j] = prob k (fun c => at_ P [i; c]) j) /\ forall i, rsum k (fun j => at_ sm [i; j]) = 1.
Proof.
  intros S Hk. unfold softmax. rewrite S. eexists. split; [reflexivity|]. split; [reflexivity|]. split; [reflexivity|].
  intros i. cbn [at_].
  assert (Hp : 0 < rsum k (fun c => exp (at_ P [i; c]))).
  { apply Rlt_le_trans with (exp (at_ P [i; O])); [apply exp_pos|].
    apply (rsum_term_le k (fun c => exp (at_ P [i; c]))); auto. intros; left; apply exp_pos. }
  unfold Rdiv. rewrite (rsum_scal_r k (/ rsum k (fun c => exp (at_ P [i; c]))) (fun j => exp (at_ P [i; j]))).
  apply Rinv_r. lra.
Qed.

Definition hot (x : R) : R := if Rltb 0 x then 1 else 0.

Lemma ce_numpy eps P T b k sm : shape P = [b; k] -> shape T = [b; k] -> (0 < b)%nat -> (2 <= k)%nat -> softmax P = Ok sm -> shape sm = [b; k] ->
  (forall i j, (i < b)%nat -> (j < k)%nat -> eps <= at_ sm [i; j] <= 1 - eps) ->
  cross_entropy_fn eps P T = Ok (- rsum b (fun i => rsum k (fun j => hot (at_ T [i; j]) * ln (at_ sm [i; j])))).
Proof.
  intros SP ST Hb Hk Es Ss Hc. unfold cross_entropy_fn. rewrite Es. cbn [bind]. unfold log_loss. rewrite Ss. cbn [shape ndmap]. rewrite ST, list_eqb_refl.
  destruct (Nat.eqb_spec b 0); [lia|]. destruct (Nat.eqb_spec k 0); [lia|]. destruct (Nat.eqb_spec k 1); [lia|]. cbn [orb negb].
  do 2 f_equal. apply rsum_ext. intros i Hi. apply rsum_ext. intros j Hj. rewrite clip_id by (apply Hc; auto). reflexivity.
Qed.

Lemma jx_ce eps P T b k : shape P = [b; k] -> shape T = [b; k] -> (0 < b)%nat -> (2 <= k)%nat ->
  (forall i j, (i < b)%nat -> (j < k)%nat -> eps <= prob k (fun c => at_ P [i; c]) j <= 1 - eps) ->
  jx_cross_entropy eps P T = cross_entropy_fn eps P T.
Proof.
  intros SP ST Hb Hk Hc. destruct (softmax_rows b k P SP ltac:(lia)) as (sm & Es & Ss & As & Rs).
  assert (Hc' : forall i j, (i < b)%nat -> (j < k)%nat -> eps <= at_ sm [i; j] <= 1 - eps) by (intros; rewrite As; auto).
  rewrite (ce_numpy eps P T b k sm) by auto.
  unfold jx_cross_entropy. rewrite Es. cbn [bind]. unfold jx_log_loss. rewrite Ss. cbn zeta.
  match goal with |- context [bop Rmult ?x ?y] => destruct (bop_same Rmult x y ltac:(cbn [shape ndmap]; congruence)) as (w & -> & Sw & Aw) end.
  cbn [bind shape ndmap] in *. rewrite Sw, ST. f_equal. rewrite nd_sum_total. cbn [shape at_]. rewrite vec_total. cbn [at_].
  rewrite rsum_opp. f_equal. apply rsum_ext. intros i Hi. apply rsum_ext. intros j Hj.
  rewrite Aw by (rewrite ST; apply inb2; auto). cbn [at_]. f_equal. f_equal.
  rewrite (rsum_ext k (fun j => clip eps (at_ sm [i; j])) (fun j => at_ sm [i; j])) by (intros; apply clip_id; auto).
  rewrite Rs. rewrite clip_id by auto. field.
Qed.

Lemma to_ce_form P T b k sm : shape P = [b; k] -> shape T = [b; k] -> softmax P = Ok sm -> shape sm = [b; k] ->
  to_cross_entropy P T = Ok (- (rsum b (fun i => rsum k (fun j =>
     hot (at_ T [i; j]) * ln (at_ sm [i; j]) + (1 - hot (at_ T [i; j])) * ln (1 - at_ sm [i; j]))) / INR (b * k)) * INR b).
Proof.
  intros SP ST Es Ss. unfold to_cross_entropy. rewrite Es. cbn [bind].
  match goal with |- context [bop Rmult ?x ?y] => destruct (bop_same Rmult x y ltac:(cbn [shape ndmap]; congruence)) as (w & -> & Sw & Aw) end.
  cbn [bind].
  match goal with |- context [bop Rmult ?x ?y] => destruct (bop_same Rmult x y ltac:(cbn [shape ndmap]; congruence)) as (w' & -> & Sw' & Aw') end.
  cbn [bind shape ndmap] in *.
  destruct (bop_same Rplus w w' ltac:(congruence)) as (u & -> & Su & Au). cbn [bind]. rewrite ST. f_equal. f_equal. f_equal.
  rewrite Su, Sw, ST, nprod2. f_equal. rewrite nd_sum_total, Su, Sw, ST. cbn [total].
  apply rsum_ext. intros i Hi. apply rsum_ext. intros j Hj.
  assert (Hin : inb [b; k] [i; j]) by (apply inb2; auto).
  rewrite Au by (rewrite Sw, ST; exact Hin). rewrite Aw, Aw' by (rewrite ST; exact Hin). reflexivity.
Qed.

Lemma to_ce_two eps P T b : shape P = [b; 2%nat] -> shape T = [b; 2%nat] -> (0 < b)%nat ->
  (forall i j, (i < b)%nat -> (j < 2)%nat -> eps <= prob 2 (fun c => at_ P [i; c]) j <= 1 - eps) ->
  (forall i, (i < b)%nat -> (0 < at_ T [i; O] /\ at_ T [i; 1%nat] <= 0) \/ (at_ T [i; O] <= 0 /\ 0 < at_ T [i; 1%nat])) ->
  to_cross_entropy P T = cross_entropy_fn eps P T.
Proof.
  intros SP ST Hb Hc Hh. destruct (softmax_rows b 2 P SP ltac:(lia)) as (sm & Es & Ss & As & Rs).
  assert (Hc' : forall i j, (i < b)%nat -> (j < 2)%nat -> eps <= at_ sm [i; j] <= 1 - eps) by (intros; rewrite As; auto).
  rewrite (ce_numpy eps P T b 2 sm) by auto. rewrite (to_ce_form P T b 2 sm) by auto. f_equal.
  assert (HB : INR b <> 0) by (apply not_0_INR; lia).
  rewrite (rsum_ext b (fun i => rsum 2 (fun j => hot (at_ T [i; j]) * ln (at_ sm [i; j]) + (1 - hot (at_ T [i; j])) * ln (1 - at_ sm [i; j])))
    (fun i => 2 * rsum 2 (fun j => hot (at_ T [i; j]) * ln (at_ sm [i; j])))).
  - rewrite rsum_scal, mult_INR. replace (INR 2) with 2 by (cbn; lra). field. exact HB.
  - intros i Hi. pose proof (Rs i) as R1. cbn [rsum] in *.
    assert (E0 : 1 - at_ sm [i; O] = at_ sm [i; 1%nat]) by lra.
    assert (E1 : 1 - at_ sm [i; 1%nat] = at_ sm [i; O]) by lra. rewrite E0, E1.
    unfold hot, Rltb. destruct (Hh i Hi) as [[H1 H2]|[H1 H2]];
    destruct (Rlt_dec 0 (at_ T [i; O])); destruct (Rlt_dec 0 (at_ T [i; 1%nat])); try lra.
Qed.

Definition three_scores : nd R := mkNd [1; 3]%nat (fun _ => 0).
Definition three_classes : nd R := mkNd [1; 3]%nat (fun idx => match idx with [_; O] => 1 | _ => -1 end).

Lemma to_ce_three : exists v w, to_cross_entropy three_scores three_classes = Ok v /\
  cross_entropy_fn (/ 1000) three_scores three_classes = Ok w /\ v < w.
Proof.
  destruct (softmax_rows 1 3 three_scores eq_refl ltac:(lia)) as (sm & Es & Ss & As & Rs).
  assert (Hs : forall j, at_ sm [O; j] = / 3).
  { intros j. rewrite As. unfold prob. cbn [at_ three_scores rsum]. rewrite exp_0. lra. }
  rewrite (to_ce_form three_scores three_classes 1 3 sm) by auto.
  rewrite (ce_numpy (/ 1000) three_scores three_classes 1 3 sm) by (auto; intros i j Hi Hj; replace i with O by lia; rewrite Hs; lra).
  eexists; eexists. split; [reflexivity|]. split; [reflexivity|].
  cbn [rsum Nat.mul Nat.add]. cbn [at_ three_classes]. unfold hot, Rltb. rewrite !Hs.
  destruct (Rlt_dec 0 1); [|lra]. destruct (Rlt_dec 0 (-1)); [lra|].
  replace (1 - / 3) with (2 * / 3) by lra. rewrite ln_mult by lra.
  rewrite ln_Rinv by lra.
  assert (L3 : ln 2 < ln 3) by (apply ln_increasing; lra).
  assert (L2 : 0 < ln 2) by (rewrite <- ln_1; apply ln_increasing; lra).
  replace (INR 3) with 3 by (cbn; lra). cbn [INR]. lra.
Qed.
