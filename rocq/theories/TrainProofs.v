(** Proofs about training from data. *)
From Coq Require Import Lia Lra.
From Verif Require Import Base BaseFacts NdModel NdFacts RSum LinAlgModel LinAlgSpec LinAlgFacts
  GPModel NoiseModel MuyGPSModel MuyGPSProofs GPSpec GPTheorems ScaleSpec ScaleProofs TensorModel TensorSpec TensorProofs
  HyperModel NamedModel NamedSpec KernelModel KernelSpec FlowModel FlowSpec FlowProofs PointwiseSpec LibSpec LibProofs
  LossModel LossSpec LossProofs ChassisModel ChassisSpec ChassisProofs ObjectiveProofs WorkModel WorkSpec WorkProofs
  KernelLemmas KernelPd TrainModel TrainSpec.
Local Open Scope R_scope.

(** ** Strictly positive kriging variances *)
Section Pos.
Variables (gamma : R -> R) (kv : R -> R -> R).

Lemma joint_split n A d k kout w : solves n (plus_diag A d) w k ->
  kout - dot n w k = quad (S n) (joint kout k A) (fun i => match i with O => 1 | S i' => - w i' end)
                     + rsum n (fun i => d i * (w i * w i)).
Proof.
  intros Hw. rewrite quad_joint.
  assert (E : dot n w k = quad n A w + rsum n (fun i => d i * (w i * w i))).
  { rewrite <- (quad_solves n _ _ _ Hw). rewrite <- quad_diag, <- quad_plus.
    apply quad_ext; auto. intros i j Hi Hj. unfold plus_diag, delta. destruct (Nat.eqb i j); ring. }
  lra.
Qed.

Lemma kriging_pos K cur kw n m train c q x wv : lk_ok K (feature_count train) cur kw ->
  ((forall i, (i < n)%nat -> 0 < noise_at m None x i) \/
   ((forall i, (i < n)%nat -> 0 <= noise_at m None x i) /\ distinct_rows train n (q x) /\
    forall i, (i < n)%nat -> exists f, (f < feature_count train)%nat /\ feature train c f <> feature train (q x i) f)) ->
  solves n (nbr_matrix (lk_cov gamma kv K (feature_count train) cur kw) m train q x) wv
    (fun j => kcov (lk_cov gamma kv K (feature_count train) cur kw) train train c (q x j)) ->
  0 < 1 - dot n wv (fun j => kcov (lk_cov gamma kv K (feature_count train) cur kw) train train c (q x j)) <= 1.
Proof.
  set (k := lk_cov gamma kv K (feature_count train) cur kw). intros OK H SOL.
  assert (B : 0 <= 1 - dot n wv (fun j => kcov k train train c (q x j)) <= 1).
  { apply (kriging_bounds gamma kv K (feature_count train) cur kw n m train train q x c wv); auto.
    intros i Hi. destruct H as [P|[P _]]; [apply Rlt_le|]; apply P; auto. }
  split; [|apply B].
  destruct (Rle_lt_or_eq_dec _ _ (proj1 B)) as [L|Z]; [exact L|exfalso].
  set (pt := fun i f => match i with O => feature train c f | S i' => feature train (q x i') f end).
  assert (JE : forall i j, (i < S n)%nat -> (j < S n)%nat -> k (fun f => pt i f - pt j f) =
     joint 1 (fun j => kcov k train train c (q x j)) (fun i j => kcov k train train (q x i) (q x j)) i j).
  { intros i j Hi Hj. destruct i as [|i], j as [|j]; cbn [joint].
    - apply (lk_cov_0 gamma kv K (feature_count train) cur kw pt O OK).
    - reflexivity.
    - exact (lk_cov_sym gamma kv K (feature_count train) cur kw train (q x i) c).
    - reflexivity. }
  pose proof (joint_split n _ _ _ 1 wv SOL) as E. rewrite <- Z in E.
  assert (PS : psd (S n) (joint 1 (fun j => kcov k train train c (q x j)) (fun i j => kcov k train train (q x i) (q x j)))).
  { eapply psd_ext; [exact JE|]. apply (lk_cov_psd gamma kv K (feature_count train) cur kw pt (S n) OK). }
  destruct H as [P|(P & D & DC)].
  - assert (NN : 0 <= rsum n (fun i => noise_at m None x i * (wv i * wv i))).
    { apply rsum_nonneg. intros i Hi. specialize (P i Hi). nra. }
    pose proof (PS (fun i => match i with O => 1 | S i' => - wv i' end)) as Q.
    assert (Z0 : rsum n (fun i => noise_at m None x i * (wv i * wv i)) = 0) by lra.
    assert (W0 : forall i, (i < n)%nat -> wv i = 0).
    { intros i Hi. assert (T : noise_at m None x i * (wv i * wv i) = 0).
      { apply (rsum_zero_inv n (fun i => noise_at m None x i * (wv i * wv i))); auto.
        intros j Hj. specialize (P j Hj). nra. }
      specialize (P i Hi). apply Rmult_integral in T as [T|T]; [lra|]. apply Rmult_integral in T. tauto. }
    unfold dot in Z. rewrite (rsum_ext n _ (fun _ => 0)), rsum_0 in Z by (intros; rewrite W0 by auto; ring). lra.
  - assert (NN : 0 <= rsum n (fun i => noise_at m None x i * (wv i * wv i))).
    { apply rsum_nonneg. intros i Hi. specialize (P i Hi). nra. }
    assert (PD : pd (S n) (joint 1 (fun j => kcov k train train c (q x j)) (fun i j => kcov k train train (q x i) (q x j)))).
    { eapply pd_ext; [exact JE|]. apply (lk_cov_pd gamma kv K (feature_count train) cur kw pt (S n) OK).
      intros i j Hi Hj Hij. destruct i as [|i], j as [|j]; cbn [pt].
      - congruence.
      - destruct (DC j ltac:(lia)) as (f & Hf & Nf). exists f. auto.
      - destruct (DC i ltac:(lia)) as (f & Hf & Nf). exists f. split; auto.
      - apply D; lia. }
    pose proof (PD (fun i => match i with O => 1 | S i' => - wv i' end)) as Q.
    assert (0 < quad (S n) (joint 1 (fun j => kcov k train train c (q x j)) (fun i j => kcov k train train (q x i) (q x j)))
              (fun i => match i with O => 1 | S i' => - wv i' end)).
    { apply Q. exists O. split; [lia|lra]. }
    lra.
Qed.
End Pos.

(** ** Tensors and kernels of a training batch *)
Section Score.
Variable ls : lsolver.
Hypothesis EX : exact_solver ls.
Variable slogdet : nat -> mat -> R * R.
Variable eps : R.
Variables (gamma : R -> R) (kv : R -> R -> R).

Lemma full_lib_call s F K D cw call : f_bound F = model_make s (f_attr F) -> full_lib s F = Some K ->
  lk_call gamma kv K (reals s) [] cw = Ok D -> full_deformation F = Some call ->
  exists x, (match call with Iso m _ => metric_call m cw | _ => Ok cw end) = Ok x /\
    call_kernel gamma kv s F x [] = Ok D.
Proof.
  intros B L E ED. unfold call_kernel. rewrite B. unfold full_lib, full_deformation in *. cbn [m_kernel model_make].
  destruct (m_kernel (f_attr F)) as [lsc|lsc sm c]; destruct lsc as [n|v|v]; cbn [k_ls] in *; try discriminate;
    injection ED as <-; injection L as <-; cbn [lk_call over_diffs kernel_make kernel_call] in *.
  - apply bind_ok in E as (x & Ex & E). exists x. auto.
  - exists cw. auto.
  - apply bind_ok in E as (x & Ex & E). exists x. auto.
  - exists cw. auto.
Qed.

Lemma train_tensors_ok s F K train targets ix nn N b n c q :
  f_bound F = model_make s (f_attr F) -> full_lib s F = Some K -> lk_ok K (feature_count train) (reals s) [] ->
  dataset train N -> shape targets = [N] ->
  shape ix = [b] -> (forall x, (x < b)%nat -> at_ ix [x] = Z.of_nat (c x) /\ (c x < N)%nat) -> index_matrix nn b n N q ->
  exists t Kin Kc, full_train_tensors F ix nn train targets = Ok t /\
    call_kernel gamma kv s F (tr_pair t) [] = Ok Kin /\ call_kernel gamma kv s F (tr_cross t) [] = Ok Kc /\
    shape Kin = [b; n; n] /\ shape Kc = [b; n] /\ shape (tr_targets t) = [b] /\ shape (tr_nn_targets t) = [b; n] /\
    (forall x i j, (x < b)%nat -> (i < n)%nat -> (j < n)%nat ->
       at_ Kin [x; i; j] = kcov (lk_cov gamma kv K (feature_count train) (reals s) []) train train (q x i) (q x j)) /\
    (forall x j, (x < b)%nat -> (j < n)%nat ->
       at_ Kc [x; j] = kcov (lk_cov gamma kv K (feature_count train) (reals s) []) train train (c x) (q x j)) /\
    (forall x, (x < b)%nat -> at_ (tr_targets t) [x] = at_ targets [c x]) /\
    (forall x j, (x < b)%nat -> (j < n)%nat -> at_ (tr_nn_targets t) [x; j] = at_ targets [q x j]).
Proof.
  intros B L OK D HT SI HC NN.
  set (k := lk_cov gamma kv K (feature_count train) (reals s) []).
  assert (PK : pointwise_kernel (feature_count train) (lk_call gamma kv K (reals s) []) k) by (apply lk_pointwise; auto).
  destruct (crosswise_kernel (feature_count train) (lk_call gamma kv K (reals s) []) k train train ix nn N N b n c q)
    as (cw & Kc & Ecw & EKc & SKc & HKc); auto.
  destruct (pairwise_kernel (feature_count train) (lk_call gamma kv K (reals s) []) k train nn N b n q PK D eq_refl NN)
    as (pw & Kin & Epw & EK & SKi & HKv).
  destruct (targets_take targets nn N b n q [] HT NN) as (T & ET & ST & HTv).
  destruct (take_ok targets ix N [] HT) as (T1 & ET1 & ST1 & HT1).
  { intros idx Hi. rewrite SI in Hi. apply inb_inv1 in Hi as (x & -> & Hx). destruct (HC x Hx) as [-> Hl]. apply in_range_of_nat; auto. }
  destruct (full_deformation F) as [d|] eqn:ED; [|unfold full_lib in L; rewrite ED in L; discriminate].
  destruct (full_lib_call s F K Kc cw d B L EKc ED) as (xc & Xc & Cc).
  destruct (full_lib_call s F K Kin pw d B L EK ED) as (xp & Xp & Cp).
  exists (mkTrain xc xp T1 T), Kin, Kc. split.
  { unfold full_train_tensors. rewrite ED.
    assert (EC : deform_crosswise d train train ix nn = Ok xc).
    { destruct d; cbn [deform_crosswise]; unfold crosswise_distances; rewrite Ecw; cbn [bind]; auto. }
    assert (EP : deform_pairwise d train nn = Ok xp).
    { destruct d; cbn [deform_pairwise]; unfold pairwise_distances; rewrite Epw; cbn [bind]; auto. }
    rewrite EC. cbn [bind]. rewrite EP. cbn [bind]. rewrite ET. cbn [bind]. rewrite ET1. reflexivity. }
  cbn [tr_pair tr_cross tr_targets tr_nn_targets].
  split; [exact Cp|]. split; [exact Cc|]. split; [exact SKi|]. split; [exact SKc|].
  split; [rewrite ST1, SI; reflexivity|]. split; [exact ST|]. split; [exact HKv|]. split; [exact HKc|]. split.
  - intros x Hx. destruct (HC x Hx) as [Ex Hl]. specialize (HT1 [x] [] (c x)). cbn [app] in HT1. apply HT1.
    + rewrite SI. apply inb1; auto.
    + rewrite Ex. apply selects_of_nat; auto.
  - intros x j Hx Hj. apply (HTv x j []); auto.
Qed.

Lemma loss_kw_clash kw names : loss_kw_ok kw -> ~ In "boundary_scale"%string names -> clash kw names = false.
Proof.
  intros H N. unfold clash. apply not_true_is_false. intros E. apply existsb_exists in E as (nm & I & E).
  unfold has_key in E. destruct (dget kw nm) as [v|] eqn:G; [|discriminate].
  apply dget_some_in in G. apply H in G. cbn in G. subst. auto.
Qed.

Lemma score_ok s F l kw train targets ix nn N b n c q draws :
  trainable s F train b n -> loo_well_posed (full_noise s F) train b n c q -> (0 < b)%nat -> (0 < n)%nat ->
  dataset train N -> shape targets = [N] ->
  shape ix = [b] -> (forall x, (x < b)%nat -> at_ ix [x] = Z.of_nat (c x) /\ (c x < N)%nat) -> index_matrix nn b n N q ->
  loss_kw_ok kw -> l <> CrossEntropy -> l <> LoolUnscaled ->
  exists t v, full_train_tensors F ix nn train targets = Ok t /\
    loo_score ls slogdet eps gamma kv s F l kw draws (tr_pair t) (tr_cross t) (tr_nn_targets t) (tr_targets t) = Ok v /\
    loo_value gamma kv s F l kw train targets b n c q v.
Proof.
  intros (B & (K & L & OK) & NF & KI) WP Hb Hn D HT SI HC NN KW L1 L2.
  destruct (train_tensors_ok s F K train targets ix nn N b n c q B L OK D HT SI HC NN)
    as (t & Kin & Kc & Et & EK & EKc & SKi & SKc & ST1 & ST & HKv & HKc & HT1 & HTv).
  set (k := lk_cov gamma kv K (feature_count train) (reals s) []) in *.
  assert (GB : gp_noise (gp_bound s F) = full_noise s F) by (unfold gp_bound; rewrite B; reflexivity).
  assert (GA : gp_noise (gp_attr s F) = full_noise s F) by reflexivity.
  assert (WPs : well_posed (full_noise s F) train b n q).
  { intros x Hx. destruct (WP x Hx) as [P|(P & Dq & _)]; [left|right]; auto. }
  assert (NS : forall x, (x < b)%nat -> nonsingular n (nbr_matrix k (full_noise s F) train q x)) by (apply well_posed_ns; auto).
  assert (HKx : forall x, (x < b)%nat -> forall i j, (i < n)%nat -> (j < n)%nat ->
     plus_diag (rowmat Kin x) (noise_at (full_noise s F) None x) i j = nbr_matrix k (full_noise s F) train q x i j).
  { intros x Hx i j Hi Hj. unfold nbr_matrix, plus_diag, rowmat. rewrite HKv; auto. }
  assert (NS' : forall x, (x < b)%nat -> nonsingular n (plus_diag (rowmat Kin x) (noise_at (full_noise s F) None x))).
  { intros x Hx. apply (nonsingular_ext n (nbr_matrix k (full_noise s F) train q x)); auto. intros; symmetry; apply HKx; auto. }
  assert (NC : no_coincidence [] [n]) by (split; cbn; [lia|intros; lia]).
  destruct (gp_mean_total ls EX (full_noise s F) None Kin Kc (tr_nn_targets t) b n [] NF SKi SKc ST NC NS') as (mean & Em & Sm & Hm).
  assert (SK : shape (gp_Kout (gp_bound s F)) = []) by reflexivity.
  destruct (gp_var_total ls EX (full_noise s F) None Kin Kc kernel_Kout b n NF SKi SKc SK NS') as (v & Ev).
  destruct (gp_var_inv ls EX (full_noise s F) None Kin Kc kernel_Kout b n v NF SKi SKc SK Ev) as [Sv Hv].
  assert (SOL : forall x wv, (x < b)%nat -> solves n (plus_diag (rowmat Kin x) (noise_at (full_noise s F) None x)) wv (rowvec Kc x) ->
     solves n (nbr_matrix k (full_noise s F) train q x) wv (fun j => kcov k train train (c x) (q x j))).
  { intros x wv Hx Hw. apply (solves_ext n (plus_diag (rowmat Kin x) (noise_at (full_noise s F) None x))); [apply HKx; auto|].
    intros i Hi. etransitivity; [exact (Hw i Hi)|]. unfold rowvec. apply HKc; auto. }
  assert (PRED : loo_predictions k (full_noise s F) train targets b n c q (fun x => at_ mean [x]) (fun x => at_ v [x])).
  { intros x Hx. split.
    - destruct (Hm x [] Hx ltac:(apply inb_nil)) as (wv & Hw & Val). exists wv. split; [apply SOL; auto|].
      rewrite Val. unfold dot. apply rsum_ext. intros j Hj. rewrite HTv; auto.
    - destruct (Hv x Hx) as (_ & wv & Hw & Val). exists wv. split; [apply SOL; auto|].
      rewrite Val. f_equal. unfold dot, rowvec. apply rsum_ext. intros j Hj. rewrite HKc; auto. }
  assert (VP : forall x, (x < b)%nat -> 0 < at_ v [x] <= 1).
  { intros x Hx. destruct (PRED x Hx) as (_ & wv & Hw & ->).
    apply (kriging_pos gamma kv K (reals s) [] n (full_noise s F) train (c x) q x wv); auto. }
  assert (SC : exists sc, scale_value ls s F draws Kin (tr_nn_targets t) = Ok sc /\
     scale_used F k (full_noise s F) train targets b n q sc).
  { unfold scale_value, scale_opt, scale_used. change (gp_kind (gp_attr s F)) with (f_kind F). change (gp_scale (gp_attr s F)) with (f_scale F).
    destruct (f_kind F) as [|it|dn it]; [| |contradiction].
    - exists (f_scale F). split; reflexivity.
    - destruct (c33_formula ls EX (gp_attr s F) it None Kin (tr_nn_targets t) b n KI Hb Hn NF SKi (or_introl ST)) as (sc & Es & Hs).
      { exact NS'. }
      exists sc. split; [rewrite Es; reflexivity|].
      destruct Hs as (qd & (cc & Hcc & Eq) & ->). exists qd. split; [|reflexivity]. exists cc. split.
      + intros x Hx. apply (solves_ext n (noisy (gp_noise (gp_attr s F)) Kin x)).
        * intros i j Hi Hj. unfold noisy. rewrite GA. apply HKx; auto.
        * intros i Hi. specialize (Hcc x Hx i Hi). etransitivity; [exact Hcc|]. unfold tgt. rewrite ST. apply HTv; auto.
      + rewrite Eq. apply rsum_ext. intros x Hx. unfold dot. apply rsum_ext. intros j Hj. unfold tgt. rewrite ST, HTv; auto. }
  destruct SC as (sc & Esc & Hsc).
  assert (EM : gp_posterior_mean ls (gp_bound s F) Kin Kc (tr_nn_targets t) None = Ok mean).
  { unfold gp_posterior_mean. rewrite GB. exact Em. }
  assert (EV : gp_opt_variance ls (gp_bound s F) Kin Kc None = Ok v).
  { unfold gp_opt_variance. rewrite GB. exact Ev. }
  assert (TE : forall f : R -> R -> R, total [b] (fun idx => f (at_ (tr_targets t) idx) (at_ mean idx)) =
      rsum b (fun x => f (at_ targets [c x]) (at_ mean [x]))).
  { intros f. cbn [total]. apply rsum_ext. intros x Hx. rewrite HT1; auto. }
  assert (V3 : vec3 mean (tr_targets t) v b) by (split; [exact Sm|split; [exact ST1|exact Sv]]).
  assert (FIN : forall v' L', batch_loss l kw b (fun x => at_ targets [c x]) (fun x => at_ mean [x]) (fun x => at_ v [x]) sc = Some L' ->
     v' = - L' -> loo_value gamma kv s F l kw train targets b n c q v').
  { intros v' L' EL ->. exists K, (fun x => at_ mean [x]), (fun x => at_ v [x]), sc, L'.
    split; [exact L|]. split; [exact PRED|]. split; [exact VP|]. split; [exact Hsc|]. split; [exact EL|reflexivity]. }
  exists t. destruct l; try congruence.
  - eexists. split; [exact Et|]. split.
    { unfold loo_score. rewrite EK. cbn [bind]. rewrite EKc. cbn [bind]. rewrite EM. cbn [bind]. cbn [loss_call].
      rewrite loss_kw_clash by (auto; cbn; intuition discriminate). rewrite mse_formula by congruence. cbn [bind]. reflexivity. }
    eapply FIN; [reflexivity|]. rewrite Sm. rewrite nprod1. do 2 f_equal.
    unfold residual_sq. apply (TE (fun y p => (p - y) ^ 2)).
  - eexists. split; [exact Et|]. split.
    { unfold loo_score. rewrite EK. cbn [bind]. rewrite EKc. cbn [bind]. rewrite EM. cbn [bind]. rewrite Esc. cbn [bind]. rewrite EV. cbn [bind loss_call].
      rewrite loss_kw_clash by (auto; cbn; intuition discriminate). rewrite (lool_formula ls slogdet mean (tr_targets t) v b sc V3). cbn [bind]. reflexivity. }
    eapply FIN; [reflexivity|]. f_equal. apply rsum_ext. intros x Hx. rewrite HT1; auto.
  - eexists. split; [exact Et|]. split.
    { unfold loo_score. rewrite EK. cbn [bind]. rewrite EKc. cbn [bind]. rewrite EM. cbn [bind]. cbn [loss_call].
      rewrite loss_kw_clash by (auto; cbn; intuition discriminate). rewrite huber_formula by congruence. cbn [bind]. reflexivity. }
    eapply FIN; [reflexivity|]. rewrite Sm. f_equal.
    apply (TE (fun y p => huber_entry _ (y - p))).
  - eexists. split; [exact Et|]. split.
    { unfold loo_score. rewrite EK. cbn [bind]. rewrite EKc. cbn [bind]. rewrite EM. cbn [bind]. rewrite Esc. cbn [bind]. rewrite EV. cbn [bind loss_call].
      rewrite loss_kw_clash by (auto; cbn; intuition discriminate). rewrite (looph_formula mean (tr_targets t) v b sc _ V3). cbn [bind]. reflexivity. }
    eapply FIN; [reflexivity|]. f_equal. apply rsum_ext. intros x Hx. rewrite HT1; auto.
Qed.
End Score.
