(** Training and predicting in another unit of the responses. *)
From Coq Require Import Lia Lra.
From Verif Require Import Base BaseFacts NdModel NdFacts RSum LinAlgModel LinAlgSpec LinAlgFacts
  GPModel NoiseModel MuyGPSModel MuyGPSProofs GPSpec GPTheorems ScaleSpec ScaleProofs TensorModel TensorSpec TensorProofs
  HyperModel HyperSpec NamedModel NamedSpec NamedProofs KernelModel KernelSpec FlowModel FlowSpec FlowProofs PointwiseSpec LibSpec LibProofs
  LossModel LossSpec LossProofs ChassisModel ChassisSpec ChassisProofs ObjectiveProofs MultiModel DriverModel ClassifyModel WorkModel WorkSpec WorkProofs WorkLemmas
  NeighborsModel NeighborsSpec NeighborsProofs BatchProofs BatchLemmas
  TrainModel TrainSpec TrainProofs TrainProofs2 TrainProofs3 BestProofs UnitsSpec UnitsProofs.
Local Open Scope R_scope.

Lemma loo_wp m X b n c q : loo_well_posed m X b n c q -> well_posed m X b n q.
Proof. intros H x Hx. destruct (H x Hx) as [P|(P & D & _)]; [left; exact P|right; split; auto]. Qed.
Lemma rescaled_batch a targets targets' N train ix nn b n c q : rescaled a targets targets' N [] ->
  batch_ok train targets ix nn N b n c q -> batch_ok train targets' ix nn N b n c q /\
  (forall x, (x < b)%nat -> at_ targets' [c x] = a * at_ targets [c x]) /\
  (forall x j, (x < b)%nat -> (j < n)%nat -> at_ targets' [q x j] = a * at_ targets [q x j]).
Proof.
  intros (S1 & S2 & H) (D & HT & Hb & Hn & SI & HC & IM). split.
  - split; [exact D|]. split; [exact S2|]. auto 10.
  - split.
    + intros x Hx. apply (H (c x) []); [apply HC; auto|apply inb_nil].
    + intros x j Hx Hj. apply (H (q x j) []); [apply (proj2 IM x j Hx Hj)|apply inb_nil].
Qed.

Section Train.
Variable ls : lsolver.
Hypothesis EX : exact_solver ls.
Variable slogdet : nat -> mat -> R * R.
Variable eps : R.
Variables (gamma : R -> R) (kv : R -> R -> R).

Lemma objective_units s F l kw kw' draws train targets targets' ix nn N b n c q names x0 bounds t t' a :
  model_ok s F -> bounds_ok s F -> positive_bounds s F -> leading_free s (k_ls (m_kernel (f_attr F))) ->
  get_opt_params s (f_attr F) = Ok (names, x0, bounds) -> (f_kind F = FixedScale \/ ~ In "noise"%string names) ->
  trainable s F train b n -> loo_well_posed (full_noise s F) train b n c q ->
  batch_ok train targets ix nn N b n c q -> loss_kw_ok kw -> loss_kw_ok kw' -> scores_vectors l ->
  a <> 0 -> rescaled a targets targets' N [] -> units_kw l a kw kw' ->
  (l = Lool \/ l = Looph -> (exists it, f_kind F = AnalyticScale it) /\ exists x j, (x < b)%nat /\ (j < n)%nat /\ at_ targets [q x j] <> 0) ->
  full_train_tensors F ix nn train targets = Ok t -> full_train_tensors F ix nn train targets' = Ok t' ->
  forall x, in_box x bounds -> exists v v',
    obj_fn ls slogdet eps gamma kv s F l kw None draws (tr_pair t) (tr_cross t) (tr_nn_targets t) (tr_targets t) (combine names x) = Ok v /\
    obj_fn ls slogdet eps gamma kv s F l kw' None draws (tr_pair t') (tr_cross t') (tr_nn_targets t') (tr_targets t') (combine names x) = Ok v' /\
    in_units l a b v v'.
Proof.
  intros MO BO PB LF EO SK TR WP BK KW KW' LS A RS UK AN Et Et' x BX.
  destruct (rescaled_batch a targets targets' N train ix nn b n c q RS BK) as (BK' & TC & TQ).
  destruct (candidate_value ls EX slogdet eps gamma kv s F l kw draws train targets ix nn N b n c q names x0 bounds t
    MO BO PB LF EO SK TR WP BK KW LS Et x BX) as (s1 & F1 & v & E1 & O1 & V1 & LV1 & TR1 & WP1).
  destruct (candidate_value ls EX slogdet eps gamma kv s F l kw' draws train targets' ix nn N b n c q names x0 bounds t'
    MO BO PB LF EO SK TR WP BK' KW' LS Et' x BX) as (s2 & F2 & v' & E2 & O2 & V2 & LV2 & TR2 & WP2).
  rewrite E1 in E2. injection E2 as <- <-. exists v, v'. split; [exact V1|]. split; [exact V2|].
  destruct TR1 as (B & (K & L & OK) & _). destruct O1 as (_ & _ & _ & _ & _ & KI & _).
  destruct BK as (_ & _ & Hb & Hn & _).
  apply (loo_transform gamma kv s1 F1 s1 F1 l kw kw' train train targets targets' b n c q v v' a K K); auto.
  - intros y Hy. apply (nbr_pd gamma kv K (reals s1) [] (full_noise s1 F1) train b n q y OK); auto. apply (loo_wp _ _ _ _ c). exact WP1.
  - rewrite KI. exact AN.
Qed.

Lemma in_units_order l a b v w v' w' : a <> 0 -> in_units l a b v v' -> in_units l a b w w' -> (v <= w <-> v' <= w').
Proof.
  intros A. assert (A2 : 0 < a ^ 2) by (rewrite <- Rsqr_pow2; apply Rlt_0_sqr; auto).
  destruct l; cbn [in_units]; try contradiction; intros -> ->; split; intros H; try lra;
    try (apply Rmult_le_compat_l; lra); apply (Rmult_le_reg_l (a ^ 2)); auto.
Qed.

Lemma scale_units s F K train targets targets' ix nn N b n c q draws t t' a it :
  trainable s F train b n -> f_bound F = f_attr F -> full_lib s F = Some K -> loo_well_posed (full_noise s F) train b n c q ->
  batch_ok train targets ix nn N b n c q -> rescaled a targets targets' N [] -> a <> 0 -> f_kind F = AnalyticScale it ->
  full_train_tensors F ix nn train targets = Ok t -> full_train_tensors F ix nn train targets' = Ok t' ->
  exists sc, full_optimize_scale ls gamma kv s F draws (tr_pair t) (tr_nn_targets t) =
      (if Rleb sc 0 then Err ValueError else Ok (with_scale F sc)) /\
    full_optimize_scale ls gamma kv s F draws (tr_pair t') (tr_nn_targets t') =
      (if Rleb sc 0 then Err ValueError else Ok (with_scale F (a ^ 2 * sc))) /\
    ml_scale b n (nbr_matrix (lk_cov gamma kv K (feature_count train) (reals s) []) (full_noise s F) train q) (fun x i => at_ targets [q x i]) sc.
Proof.
  intros TR BA L WP BK RS A KI Et Et'. destruct (rescaled_batch a targets targets' N train ix nn b n c q RS BK) as (BK' & TC & TQ).
  destruct (full_scale_ok ls EX gamma kv s F K train targets ix nn N b n c q draws t TR BA L WP BK Et) as (sc & SU & E).
  destruct (full_scale_ok ls EX gamma kv s F K train targets' ix nn N b n c q draws t' TR BA L WP BK' Et') as (sc' & SU' & E').
  pose proof TR as (_ & (K0 & L0 & OK) & _). rewrite L in L0. injection L0 as <-.
  unfold scale_used in SU, SU'. rewrite KI in SU, SU'.
  assert (ES : sc' = a ^ 2 * sc).
  { refine (ml_scale_scaled b n _ _ _ _ a sc sc' _ _ _ SU SU'); auto. apply well_posed_ns; auto. apply (loo_wp _ _ _ _ c). exact WP. }
  subst sc'. exists sc. split; [exact E|]. split; [|exact SU]. rewrite E'.
  assert (A2 : 0 < a ^ 2) by (rewrite <- Rsqr_pow2; apply Rlt_0_sqr; auto).
  assert (EB : Rleb (a ^ 2 * sc) 0 = Rleb sc 0); [|rewrite EB; reflexivity].
  unfold Rleb. destruct (Rle_dec sc 0) as [H|H], (Rle_dec (a ^ 2 * sc) 0) as [H'|H']; try reflexivity; exfalso; nra.
Qed.

Section Any.
Variable knn : dict nnval -> list point -> point -> nat -> list (nat * R).
Variable hnsw : nnval -> list point -> point -> nat -> list (nat * R).
Variable dist : dict nnval -> point -> point -> R.
Hypothesis Hsk : sklearn_ok knn dist.

Lemma predictions_units en method kw w g g' K cur test train targets targets' N M n ex a :
  lower method = "exact"%string -> euclidean_kw kw -> nn_init en (rows_of train) n method kw = Ok w -> (0 < n <= N /\ 0 < M)%nat ->
  dataset test M -> dataset train N -> ndim test = ndim train -> feature_count test = feature_count train ->
  lk_ok K (feature_count train) cur [] -> no_coincidence ex [n] ->
  shape (gp_Kout g) = [] -> at_ (gp_Kout g) [] = 1 -> shape (gp_Kout g') = [] -> at_ (gp_Kout g') [] = 1 -> 0 <= gp_var_scale g ->
  noise_fits (gp_noise g) M n -> sound_noise (gp_noise g) train N M n ->
  gp_noise g' = gp_noise g -> gp_var_scale g' = a ^ 2 * gp_var_scale g -> rescaled a targets targets' N ex ->
  exists mean var mean' var',
    regress_any ls knn hnsw (Univariate (lib_model gamma kv g K cur)) test train w targets = Ok (mean, var) /\
    regress_any ls knn hnsw (Univariate (lib_model gamma kv g' K cur)) test train w targets' = Ok (mean', var') /\
    forall x, (x < M)%nat -> at_ var' [x] = a ^ 2 * at_ var [x] /\ forall e, inb ex e -> at_ mean' (x :: e) = a * at_ mean (x :: e).
Proof.
  intros Hm He Hi Hn D1 D2 ND FC OK NC SK K1 SK' K1' SC NF SN GN GS (ST & ST' & RS).
  destruct (regress_any_nbr gamma kv ls EX knn hnsw dist Hsk en method kw w g K cur [] test train targets N M n ex)
    as (mean & var & E & _ & _ & NS & V); auto.
  destruct (regress_any_nbr gamma kv ls EX knn hnsw dist Hsk en method kw w g' K cur [] test train targets' N M n ex)
    as (mean' & var' & E' & _ & _ & _ & V'); auto; try (rewrite GN; auto).
  { rewrite GS. apply Rmult_le_pos; [apply pow2_ge_0|exact SC]. }
  rewrite GN in V'. exists mean, var, mean', var'. split; [exact E|]. split; [exact E'|]. intros x Hx.
  destruct (V x Hx) as (NRx & Mx & (wv & W & Vx) & _). destruct (V' x Hx) as (_ & My & (wv' & W' & Vy) & _). split.
  - rewrite Vx, Vy, GS. pose proof (solves_unique n _ wv wv' _ (NS x Hx) W W') as U.
    replace (dot n wv' (fun j => kcov (lk_cov gamma kv K (feature_count train) cur []) test train x (nbr knn hnsw w test x j)))
      with (dot n wv (fun j => kcov (lk_cov gamma kv K (feature_count train) cur []) test train x (nbr knn hnsw w test x j))); [ring|].
    unfold dot. apply rsum_ext. intros j Hj. rewrite U by auto. reflexivity.
  - intros e Hie. refine (kriging_scaled n _ _ _ _ _ _ a _ _ (NS x Hx) _ _ _ (Mx e Hie) (My e Hie)); auto.
    intros i Hi'. apply RS; auto. apply NRx. auto.
Qed.
End Any.
End Train.
