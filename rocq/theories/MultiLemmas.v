(** Concrete multivariate models: witnesses for the refutations, hypotheses of the theorems. *)
From Coq Require Import Lia Lra.
From Verif Require Import Base BaseFacts NdModel NdFacts RSum LinAlgModel LinAlgSpec LinAlgFacts
  GPModel NoiseModel MuyGPSModel GPSpec GPTheorems ScaleSpec ScaleProofs FastProofs MuyGPSProofs Gauss GPExamples
  CongProofs MultiModel MultiSpec MultiProofs.
Local Open Scope R_scope.

(** A kernel functor returning the example kernels; difference tensors; constant targets. *)
Definition exkern (d : nd R) : result (nd R) :=
  if (ndim d =? 4)%nat then Ok exKin else Ok exKcross.
Definition ex_pd : nd R := mkNd [2; 2; 2; 1]%nat (fun _ => 0).
Definition ex_cd : nd R := mkNd [2; 2; 1]%nat (fun _ => 0).
Definition ex_const (r : nat) (v : R) : nd R := mkNd [2%nat; 2%nat; r] (fun _ => v).
Definition ex_mm (m : noise_model) (s : R) : mmodel :=
  mkMm (mkGp m (AnalyticScale 1) s s exKout) exkern.

Lemma ex_noisy_ns x : nonsingular 2 (noisy (HomoscedasticNoise 1) exKin x).
Proof. apply pd_nonsingular. apply (exKin_noisy_pd (HomoscedasticNoise 1)); cbn; auto; intros; lra. Qed.

Lemma ex_variance s s' : exists v,
  univariate_variance gauss (mkGp (HomoscedasticNoise 1) (AnalyticScale 1) s s' exKout)
    (ex_mm (HomoscedasticNoise 1) s) ex_pd ex_cd = Ok v /\ shape v = [2%nat] /\ entry v 0 = s' * (9 / 2).
Proof.
  unfold univariate_variance. cbn [ex_mm mm_kernel exkern ndim ex_pd ex_cd shape List.length Nat.eqb bind].
  unfold exkern, ndim. cbn [ex_pd ex_cd shape List.length Nat.eqb bind].
  unfold gp_posterior_variance, gp_opt_variance. cbn [gp_noise gp_Kout gp_var_scale].
  destruct (gp_var_total gauss gauss_exact (HomoscedasticNoise 1) None exKin exKcross exKout 2 2) as (u & Eu);
    try reflexivity; try exact I.
  { intros x Hx. apply ex_noisy_ns. }
  rewrite Eu; cbn [bind]. eexists. split; [reflexivity|].
  destruct (gp_var_inv gauss gauss_exact (HomoscedasticNoise 1) None exKin exKcross exKout 2 2 u I eq_refl eq_refl eq_refl Eu) as [Su Hu].
  split; [exact Su|].
  destruct (Hu O ltac:(lia)) as (_ & w & Hw & Hv).
  pose proof (Hw O ltac:(lia)) as H0. pose proof (Hw 1%nat ltac:(lia)) as H1.
  cbn in H0, H1. unfold plus_diag, rowmat, rowvec in H0, H1. cbn in H0, H1.
  unfold entry. cbn [ndmap shape at_]. rewrite Su. cbn [unravel]. rewrite nprod0, Nat.div_1_r.
  rewrite Hv. cbn [exKout at_]. unfold dot, rowvec. cbn. nra.
Qed.

Lemma mm_variance_refuted : exists ls, exact_solver ls /\ exists m out v,
  mm_posterior_variance ls [m] ex_pd ex_cd = Ok out /\
  univariate_variance ls (mm_gp m) m ex_pd ex_cd = Ok v /\
  gp_scale (mm_gp m) = 2 /\ at_ out [O; O] = 18 /\ entry v 0 = 9.
Proof.
  exists gauss. split; [exact gauss_exact|].
  exists (ex_mm (HomoscedasticNoise 1) 2). destruct (ex_variance 2 2) as (v & Ev & Sv & Hv).
  destruct (mm_var_total gauss [ex_mm (HomoscedasticNoise 1) 2] ex_pd ex_cd 2 [2; 1]%nat eq_refl) as [out Eo].
  { intros [|i] m Hm; [|destruct i; discriminate]. cbn in Hm. injection Hm as <-. exists v.
    split; [exact Ev|]. rewrite Sv, nprod1. reflexivity. }
  exists out, v. split; [auto|]. split; [exact Ev|]. split; [reflexivity|].
  destruct (mm_var_ok gauss _ ex_pd ex_cd 2 [2; 1]%nat out eq_refl Eo) as (_ & H).
  destruct (H O _ eq_refl) as (v' & Ev' & _ & Hval).
  assert (v' = v) as -> by (cbn [ex_mm mm_gp] in Ev'; congruence).
  rewrite Hval by lia. rewrite Hv. cbn. lra.
Qed.

Lemma ex_scale r i draws : (i < r)%nat ->
  exists g', univariate_scale gauss draws (ex_mm (HomoscedasticNoise 1) 1) ex_pd (ex_const r 4) i = Ok g' /\
    gp_scale g' = 4 /\ gp_var_scale g' = 4 /\ gp_noise g' = HomoscedasticNoise 1 /\ gp_Kout g' = exKout.
Proof.
  intros Hi. unfold univariate_scale. cbn [ex_mm mm_kernel]. unfold exkern, ndim.
  cbn [ex_pd shape List.length Nat.eqb bind mm_gp].
  set (g := mkGp (HomoscedasticNoise 1) (AnalyticScale 1) 1 1 exKout).
  destruct (c33_formula gauss gauss_exact g 1 None exKin (response_column (ex_const r 4) i) 2 2) as (s & Es & q & (c & Hc & Hq) & Hs);
    try lia; try exact I; try reflexivity.
  { right. reflexivity. }
  { intros x Hx. apply ex_noisy_ns. }
  assert (H4 : s = 4).
  { pose proof (Hc O ltac:(lia) O ltac:(lia)) as A0. pose proof (Hc O ltac:(lia) 1%nat ltac:(lia)) as A1.
    pose proof (Hc 1%nat ltac:(lia) O ltac:(lia)) as B0. pose proof (Hc 1%nat ltac:(lia) 1%nat ltac:(lia)) as B1.
    cbn in A0, A1, B0, B1. unfold noisy, plus_diag, rowmat in A0, A1, B0, B1. cbn in A0, A1, B0, B1.
    unfold dot in Hq. cbn in Hq. cbn in Hs. subst s q.
    assert (c 0%nat 0%nat = 1) as -> by lra. assert (c 0%nat 1%nat = 1) as -> by lra.
    assert (c 1%nat 0%nat = 1) as -> by lra. assert (c 1%nat 1%nat = 1) as -> by lra. lra. }
  destruct (optimize_scale_spec gauss g 1 draws exKin (response_column (ex_const r 4) i) s eq_refl Es) as [Hpos _].
  destruct (Hpos ltac:(lra)) as (g' & Eg & E1 & E2 & E3 & _ & E5).
  exists g'. rewrite H4 in *. auto 10.
Qed.

Lemma ex_scale_multi r draws : (forall i k a, In a (draws i k) -> (a < 2)%nat) ->
  exists ms', mm_optimize_scale gauss draws (repeat (ex_mm (HomoscedasticNoise 1) 1) r) ex_pd (ex_const r 4) = (ms', Ok tt).
Proof.
  intros Hd. destruct (mm_optimize_scale _ _ _ _ _) as [ms' [[]|e]] eqn:E; [eauto|exfalso].
  destruct (mm_scale_err gauss draws (repeat (ex_mm (HomoscedasticNoise 1) 1) r) ex_pd (ex_const r 4) 2 2 r ms' e gauss_exact eq_refl Hd) as (i & m & Hm & Hu & _); auto.
  { rewrite repeat_length; auto. }
  pose proof (nth_error_In _ _ Hm) as Hin. apply repeat_spec in Hin as ->.
  assert (i < r)%nat by (pose proof (proj1 (nth_error_Some _ i) ltac:(rewrite Hm; discriminate)); rewrite repeat_length in *; auto).
  destruct (ex_scale r i (draws i) H) as (g' & Eg & _). congruence.
Qed.

Lemma mm_stale_refuted : exists ls, exact_solver ls /\ exists draws m m' g' v v',
  mm_optimize_scale ls draws [m] ex_pd (ex_const 1 4) = ([m'], Ok tt) /\
  univariate_scale ls (draws O) m ex_pd (ex_const 1 4) 0 = Ok g' /\
  gp_scale (mm_gp m') = 4 /\ gp_scale g' = 4 /\
  univariate_variance ls (mm_gp m') m' ex_pd ex_cd = Ok v' /\
  univariate_variance ls g' m ex_pd ex_cd = Ok v /\ entry v' 0 = 9 / 2 /\ entry v 0 = 18.
Proof.
  exists gauss. split; [exact gauss_exact|]. exists (fun _ _ => []), (ex_mm (HomoscedasticNoise 1) 1).
  destruct (ex_scale_multi 1 (fun _ _ => [])) as [ms' E]; [intros i k a []|].
  destruct (mm_scale_ok gauss (fun _ _ => []) [ex_mm (HomoscedasticNoise 1) 1] ex_pd (ex_const 1 4) 2 2 1 ms' gauss_exact eq_refl ltac:(intros i k a []) E)
    as (_ & Hl & H).
  destruct (H O _ eq_refl) as (m' & g' & Hm' & Eu & Hk & Hg & Hs).
  destruct (ex_scale 1 O (fun _ => []) ltac:(lia)) as (g2 & Eg2 & S1 & S2 & S3 & S4).
  assert (g2 = g') as -> by congruence.
  destruct ms' as [|m1 [|]]; try discriminate. cbn in Hm'. injection Hm' as ->.
  destruct m' as [[no ki sc vs ko] ke]. cbn in Hk, Hg, Hs. subst ke vs. subst g'. cbn in S1, S2, S3, S4. subst.
  destruct (ex_variance 1 1) as (v' & Ev' & _ & Hv'). destruct (ex_variance 1 4) as (v & Ev & _ & Hv).
  exists (mkMm (mkGp (HomoscedasticNoise 1) ki 4 1 exKout) exkern), (mkGp (HomoscedasticNoise 1) ki 4 4 exKout), v, v'.
  split; [exact E|]. split; [exact Eu|]. split; [reflexivity|]. split; [reflexivity|].
  split; [exact Ev'|]. split; [exact Ev|]. split; [rewrite Hv'; lra|rewrite Hv; lra].
Qed.

Lemma mm_fast_refuted : exists ls, exact_solver ls /\ exists m C c F,
  mm_fast_coefficients ls [m] ex_pd (ex_const 1 4) = Ok C /\
  univariate_coefficients ls m ex_pd (ex_const 1 4) 0 = Ok c /\
  at_ C [0; 0; 0]%nat = 0 /\ at_ c [0; 0]%nat = 4 / 3 /\
  mm_fast_mean [m] ex_cd (ex_const 1 (4 / 3)) = Ok F /\ at_ F [0; 0]%nat = 0 /\
  (exists f, gp_fast_posterior_mean exKcross c = Ok f /\ mm_kernel m ex_cd = Ok exKcross /\ at_ f [0%nat] = 8 / 3).
Proof.
  exists gauss. split; [exact gauss_exact|]. exists (ex_mm NullNoise 1).
  assert (Hns : forall x, nonsingular 2 (noisy NullNoise exKin x)).
  { intros x. apply pd_nonsingular. apply exKin_noisy_pd; cbn; auto; intros; lra. }
  (* coefficients on the (2,2) column the multivariate model passes *)
  set (col := mkNd [2; 2]%nat (fun idx => at_ (ex_const 1 4) (idx ++ [O]))).
  destruct (solve3 gauss gauss_exact NullNoise exKin (expand_last col) 2 2 1) as (K & X & EK & EX & SX & HX);
    try reflexivity; try exact I; auto.
  destruct (solve3 gauss gauss_exact NullNoise exKin (response_column (ex_const 1 4) 0) 2 2 1) as (K' & X' & EK' & EX' & SX' & HX');
    try reflexivity; try exact I; auto.
  cbn [perturb] in EK, EK'. injection EK as <-. injection EK' as <-.
  assert (SQ : shape (squeeze X) = [2; 2]%nat) by (unfold squeeze; cbn [shape]; rewrite SX; reflexivity).
  assert (SQ' : shape (squeeze X') = [2; 2]%nat) by (unfold squeeze; cbn [shape]; rewrite SX'; reflexivity).
  exists (zeros [2; 2; 1]%nat), (squeeze X').
  assert (E1 : mm_fast_coefficients gauss [ex_mm NullNoise 1] ex_pd (ex_const 1 4) = Ok (zeros [2; 2; 1]%nat)).
  { unfold mm_fast_coefficients. unfold ex_const. cbn [shape mm_coeff_loop]. cbn [ex_mm mm_kernel mm_gp gp_noise].
    unfold exkern, ndim. cbn [ex_pd shape List.length Nat.eqb bind perturb].
    change (column (mkNd [2; 2; 1]%nat (fun _ => 4)) 0) with (Ok col).
    cbn [bind]. unfold gp_fast_coefficients. cbn [gp_noise perturb bind].
    unfold fast_precompute. change (ndim col =? 2)%nat with true. cbn iota.
    rewrite EX; cbn [bind]. unfold assign_last. rewrite SQ. reflexivity. }
  assert (E2 : univariate_coefficients gauss (ex_mm NullNoise 1) ex_pd (ex_const 1 4) 0 = Ok (squeeze X')).
  { unfold univariate_coefficients. cbn [ex_mm mm_kernel mm_gp]. unfold exkern, ndim.
    cbn [ex_pd shape List.length Nat.eqb bind]. unfold gp_fast_coefficients. cbn [gp_noise perturb bind].
    unfold fast_precompute, ndim. rewrite (response_column_shape (ex_const 1 4) 0 2 2 1 eq_refl).
    cbn [List.length Nat.eqb]. rewrite EX'. reflexivity. }
  assert (Hsq : forall x i, at_ (squeeze X') [x; i] = at_ X' [x; i; O]).
  { intros x i. unfold squeeze. cbn [at_]. rewrite SX'. reflexivity. }
  assert (V : at_ X' [0; 0; 0]%nat = 4 / 3 /\ at_ X' [0; 1; 0]%nat = 4 / 3).
  { pose proof (HX' O O ltac:(lia) ltac:(lia) O ltac:(lia)) as A0.
    pose proof (HX' O O ltac:(lia) ltac:(lia) 1%nat ltac:(lia)) as A1.
    cbn in A0, A1. unfold noisy, plus_diag, rowmat in A0, A1. cbn in A0, A1. split; lra. }
  destruct V as [V0 V1].
  assert (E3 : exists F, mm_fast_mean [ex_mm NullNoise 1] ex_cd (ex_const 1 (4 / 3)) = Ok F).
  { unfold mm_fast_mean. cbn [mm_kcross_loop ex_mm mm_kernel]. unfold exkern, ndim.
    cbn [ex_cd shape List.length Nat.eqb bind]. unfold assign_last.
    cbn [zeros ex_const shape exKcross removelast last Nat.leb]. rewrite bshape_refl.
    destruct (list_eq_dec Nat.eq_dec [2; 2]%nat [2; 2]%nat); [|congruence]. cbn [bind].
    unfold mm_fast_posterior_mean, einsum_ijk_ijk. cbn. eauto. }
  destruct E3 as [F E3]. exists F.
  split; [exact E1|]. split; [exact E2|]. split; [reflexivity|].
  split; [rewrite Hsq; auto|]. split; [exact E3|].
  split; [apply (mm_fast_mean_zero _ _ _ _ E3)|].
  unfold gp_fast_posterior_mean, fast_posterior_mean, einsum_ij_ijk, atleast_3d. rewrite SQ'.
  cbn [shape exKcross]. rewrite !edim_refl. cbn [bind]. eexists. split; [reflexivity|]. split; [reflexivity|].
  unfold squeeze at 1. cbn [at_ shape unsqueeze_idx Nat.eqb rsum]. cbn [eix Nat.eqb].
  rewrite !Hsq, V0, V1. cbn. lra.
Qed.
