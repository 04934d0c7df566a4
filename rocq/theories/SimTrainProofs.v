(** Training in other coordinates of the features. *)
From Coq Require Import Lia Lra.
From Verif Require Import Base BaseFacts NdModel NdFacts RSum LinAlgModel LinAlgSpec LinAlgFacts
  GPModel NoiseModel MuyGPSModel MuyGPSProofs GPSpec GPTheorems ScaleSpec ScaleProofs TensorModel TensorSpec TensorProofs
  HyperModel HyperSpec NamedModel NamedSpec NamedProofs KernelModel KernelSpec FlowModel FlowSpec FlowProofs PointwiseSpec LibSpec LibProofs
  LossModel LossSpec LossProofs ChassisModel ChassisSpec ChassisProofs ObjectiveProofs MultiModel DriverModel ClassifyModel WorkModel WorkSpec WorkProofs WorkLemmas
  NeighborsModel NeighborsSpec NeighborsProofs BatchProofs BatchLemmas
  TrainModel TrainSpec TrainProofs TrainProofs2 TrainProofs3 BestProofs SimSpec SimProofs UnitsSpec UnitsProofs UnitsProofs2 UnitsProofs3 SimTrainSpec.
Local Open Scope R_scope.

(** ** The value of a candidate *)
Section Value.
Variables (gamma : R -> R) (kv : R -> R -> R).

Lemma batch_loss_ext l kw b y mean var mean' var' sc :
  (forall x, (x < b)%nat -> mean' x = mean x) -> (forall x, (x < b)%nat -> var' x = var x) ->
  batch_loss l kw b y mean' var' sc = batch_loss l kw b y mean var sc.
Proof.
  intros M V. destruct l; cbn [batch_loss]; try reflexivity; apply (f_equal Some).
  - f_equal. apply rsum_ext. intros x Hx. rewrite M by auto. reflexivity.
  - apply rsum_ext. intros x Hx. rewrite M, V by auto. reflexivity.
  - apply rsum_ext. intros x Hx. rewrite M by auto. reflexivity.
  - apply rsum_ext. intros x Hx. rewrite M, V by auto. reflexivity.
Qed.

Lemma loo_same s F s' F' l kw train train' targets b n c q q' v v' K K' :
  full_lib s F = Some K -> full_lib s' F' = Some K' -> f_kind F' = f_kind F -> f_scale F' = f_scale F ->
  let k := lk_cov gamma kv K (feature_count train) (reals s) [] in let k' := lk_cov gamma kv K' (feature_count train') (reals s') [] in
  (forall x j, (x < b)%nat -> (j < n)%nat -> q' x j = q x j) ->
  (forall x, (x < b)%nat -> nonsingular n (nbr_matrix k (full_noise s F) train q x)) ->
  (forall x i j, (x < b)%nat -> (i < n)%nat -> (j < n)%nat ->
     nbr_matrix k' (full_noise s' F') train' q' x i j = nbr_matrix k (full_noise s F) train q x i j) ->
  (forall x j, (x < b)%nat -> (j < n)%nat -> kcov k' train' train' (c x) (q' x j) = kcov k train train (c x) (q x j)) ->
  loo_value gamma kv s F l kw train targets b n c q v -> loo_value gamma kv s' F' l kw train' targets b n c q' v' -> v' = v.
Proof.
  intros L L' KI SC k k' QE NS AE KE (K0 & mean & var & sc & Lo & EL & P & VP & SU & BL & ->)
    (K0' & mean' & var' & sc' & Lo' & EL' & P' & VP' & SU' & BL' & ->).
  rewrite L in EL. injection EL as <-. rewrite L' in EL'. injection EL' as <-. fold k in P, SU. fold k' in P', SU'.
  assert (ME : forall x, (x < b)%nat -> mean' x = mean x).
  { intros x Hx. destruct (P x Hx) as (M1 & _). destruct (P' x Hx) as (M2 & _).
    rewrite <- (Rmult_1_l (mean x)). refine (kriging_scaled n _ _ _ _ _ _ 1 _ _ (NS x Hx) _ _ _ M1 M2); auto. intros i Hi; rewrite QE by auto; ring. }
  assert (VE : forall x, (x < b)%nat -> var' x = var x).
  { intros x Hx. destruct (P x Hx) as (_ & w & W & ->). destruct (P' x Hx) as (_ & w' & W' & ->). f_equal.
    rewrite <- (Rmult_1_l (dot n w _)).
    apply (kriging_scaled n (nbr_matrix k (full_noise s F) train q x) (nbr_matrix k' (full_noise s' F') train' q' x)
      (fun j => kcov k train train (c x) (q x j)) (fun j => kcov k' train' train' (c x) (q' x j))
      (fun j => kcov k train train (c x) (q x j)) (fun j => kcov k' train' train' (c x) (q' x j)) 1 _ _ (NS x Hx)).
    - intros; apply AE; auto.
    - intros; apply KE; auto.
    - intros; rewrite KE by auto; ring.
    - exists w. auto.
    - exists w'. auto. }
  assert (SE : sc' = sc).
  { unfold scale_used in SU, SU'. rewrite KI in SU'. destruct (f_kind F) as [|it|m it]; [congruence| |contradiction].
    replace sc with (1 ^ 2 * sc) by ring. refine (ml_scale_scaled b n _ _ _ _ 1 sc sc' NS AE _ SU SU'). intros x i Hx Hi; rewrite QE by auto; ring. }
  subst sc'. rewrite (batch_loss_ext l kw b _ mean var mean' var' sc ME VE), BL in BL'. injection BL' as <-. reflexivity.
Qed.
End Value.

(** ** The parameters of a candidate *)
Lemma with_scaled_one name names x : with_scaled 1 name names x x.
Proof. intros h. destruct (dget (combine names x) h); cbn; [|reflexivity]. destruct (String.eqb h name); f_equal; ring. Qed.

Lemma candidate_at s F names x0 bounds x s' F' nm : model_ok s F -> get_opt_params s (f_attr F) = Ok (names, x0, bounds) -> in_box x bounds ->
  new_muygps s F names bounds (combine names (map Fin x)) = Ok (s', F') -> optimized_model s F (combine names (map Fin x)) s' F' ->
  In nm (declared (f_attr F)) ->
  let p := st_cell s (nm_loc nm) in let p' := st_cell s' (nm_loc (move_named (st_next s) nm)) in
  p_fixed p' = p_fixed p /\ p_bounds p' = p_bounds p /\
  if p_fixed p then p_val p' = p_val p else exists r, dget (combine names x) (nm_name nm) = Some r /\ p_val p' = Fin r.
Proof.
  intros MO EO BOX E O Hin. pose proof (new_muygps_form _ _ _ _ _ _ _ E) as EF. destruct O as (_ & HO & _).
  assert (AT : f_attr F' = model_make s' (move_model (st_next s) (f_attr F))) by (subst F'; reflexivity).
  rewrite AT, declared_make, declared_move in HO. pose proof (Forall2_map_in _ _ _ HO) as HO'. clear HO.
  destruct (HO' nm Hin) as (_ & _ & PF & PBd & Hv). cbv zeta. split; [exact PF|]. split; [exact PBd|].
  destruct MO as (Hb & Hn & _). pose proof EO as Eo.
  rewrite get_opt_params_eq in Eo by assumption. injection Eo as E1 E2 E3.
  set (L := filter (NamedSpec.free s) (declared (f_attr F))) in *.
  assert (NDn : NoDup (map nm_name L)).
  { pose proof (built_nodup _ Hb) as ND. clear -ND. unfold L.
    induction (declared (f_attr F)) as [|a l IH]; simpl in *; [constructor|]. inversion ND; subst.
    destruct (NamedSpec.free s a); simpl; auto. constructor; auto. intros C. apply H1.
    apply in_map_iff in C. destruct C as [y [<- Hy]]. apply filter_In in Hy. apply in_map. tauto. }
  destruct (p_fixed (st_cell s (nm_loc nm))) eqn:Hf; [exact Hv|].
  destruct Hv as (v & Hd & Hc & _). rewrite dget_combine_fin in Hd.
  destruct (dget (combine names x) (nm_name nm)) as [r|] eqn:Er; [|discriminate]. cbn in Hd. injection Hd as <-.
  assert (HnL : In nm L) by (apply filter_In; split; [assumption|unfold NamedSpec.free; rewrite Hf; reflexivity]).
  pose proof BOX as HB. rewrite <- E3 in HB. rewrite <- E1 in Er.
  destruct (box_lookup s L x nm r HB NDn HnL Er) as [B1 B2]. exists r. split; [reflexivity|].
  apply (clamped_inside _ _ _ _ Hc B1 B2).
Qed.

Lemma param_eq (p p' : param) : p_val p' = p_val p -> p_bounds p' = p_bounds p -> p_fixed p' = p_fixed p -> p' = p.
Proof. destruct p, p'; cbn; intros -> -> ->; reflexivity. Qed.

(** The kernel, the noise and the length scale of the models of two candidates. *)
Lemma two_candidates s F names x0 bounds x x' s1 F1 s2 F2 nm K r : model_ok s F -> positive_bounds s F ->
  get_opt_params s (f_attr F) = Ok (names, x0, bounds) -> in_box x bounds -> in_box x' bounds ->
  new_muygps s F names bounds (combine names (map Fin x)) = Ok (s1, F1) -> optimized_model s F (combine names (map Fin x)) s1 F1 ->
  new_muygps s F names bounds (combine names (map Fin x')) = Ok (s2, F2) -> optimized_model s F (combine names (map Fin x')) s2 F2 ->
  k_ls (m_kernel (f_attr F)) = LSScalar nm -> (forall ls sm c, m_kernel (f_attr F) = KMatern ls sm c -> p_fixed (st_cell s (nm_loc sm)) = true) ->
  with_scaled r (nm_name nm) names x x' -> (r = 1 \/ p_fixed (st_cell s (nm_loc nm)) = false) ->
  full_lib s1 F1 = Some K ->
  full_lib s2 F2 = Some K /\ full_noise s2 F2 = full_noise s1 F1 /\
  isotropic K (nm_loc (move_named (st_next s) nm)) /\ same_smoothness K (reals s1) (reals s2) /\
  reals s2 (nm_loc (move_named (st_next s) nm)) = r * reals s1 (nm_loc (move_named (st_next s) nm)).
Proof.
  intros MO PB EO BX BX' E1 O1 E2 O2 LSS SMF WS RR L1.
  pose proof (fun nm H => candidate_at s F names x0 bounds x s1 F1 nm MO EO BX E1 O1 H) as C1.
  pose proof (fun nm H => candidate_at s F names x0 bounds x' s2 F2 nm MO EO BX' E2 O2 H) as C2.
  pose proof (new_muygps_form _ _ _ _ _ _ _ E1) as EF1. pose proof (new_muygps_form _ _ _ _ _ _ _ E2) as EF2.
  assert (AT1 : f_attr F1 = model_make s1 (move_model (st_next s) (f_attr F))) by (subst F1; reflexivity).
  assert (AT2 : f_attr F2 = model_make s2 (move_model (st_next s) (f_attr F))) by (subst F2; reflexivity).
  assert (ME1 : f_metric F1 = f_metric F) by (subst F1; reflexivity). assert (ME2 : f_metric F2 = f_metric F) by (subst F2; reflexivity).
  assert (HE1 : f_hetero F1 = f_hetero F) by (subst F1; reflexivity). assert (HE2 : f_hetero F2 = f_hetero F) by (subst F2; reflexivity).
  clear EF1 EF2.
  assert (KL : forall s', k_ls (kernel_make s' (move_kernel (st_next s) (m_kernel (f_attr F)))) = move_ls (st_next s) (k_ls (m_kernel (f_attr F))))
    by (intros; destruct (m_kernel (f_attr F)); reflexivity).
  assert (DE1 : full_deformation F1 = Some (Iso (f_metric F) (move_named (st_next s) nm))).
  { unfold full_deformation. rewrite AT1. cbn [model_make move_model m_kernel]. rewrite KL, LSS, ME1. reflexivity. }
  assert (DE2 : full_deformation F2 = Some (Iso (f_metric F) (move_named (st_next s) nm))).
  { unfold full_deformation. rewrite AT2. cbn [model_make move_model m_kernel]. rewrite KL, LSS, ME2. reflexivity. }
  assert (DK : forall m, In m (kernel_params (m_kernel (f_attr F))) -> In m (declared (f_attr F))).
  { intros m Hm. unfold declared. apply in_app_iff. left. destruct (m_kernel (f_attr F)); exact Hm. }
  assert (ILS : In nm (declared (f_attr F))).
  { apply DK. destruct (m_kernel (f_attr F)); cbn [kernel_params k_ls] in *; subst; cbn; auto. }
  assert (ND : NoDup (map nm_name (declared (f_attr F)))) by (apply built_nodup; apply MO).
  (* parameters with another name keep their value *)
  assert (OTHER : forall m, In m (declared (f_attr F)) -> nm_name m <> nm_name nm ->
     st_cell s2 (nm_loc (move_named (st_next s) m)) = st_cell s1 (nm_loc (move_named (st_next s) m))).
  { intros m Hm NE. destruct (C1 m Hm) as (P1 & B1 & V1). destruct (C2 m Hm) as (P2 & B2 & V2). cbv zeta in *.
    apply param_eq; try congruence. destruct (p_fixed (st_cell s (nm_loc m))); [congruence|].
    destruct V1 as (a & D1 & ->). destruct V2 as (b & D2 & ->). rewrite (WS (nm_name m)), D1 in D2. cbn [option_map] in D2.
    destruct (String.eqb_spec (nm_name m) (nm_name nm)); [contradiction|]. injection D2 as <-. reflexivity. }
  assert (SAME : forall m, In m (declared (f_attr F)) -> nm_name m = nm_name nm -> m = nm).
  { intros m Hm EN. clear -ND Hm ILS EN. induction (declared (f_attr F)) as [|a l IH]; [contradiction|]. cbn in ND. inversion ND; subst.
    destruct Hm as [->|Hm], ILS as [->|Hn]; auto.
    - exfalso. apply H1. rewrite EN. apply in_map; auto.
    - exfalso. apply H1. rewrite <- EN. apply in_map; auto. }
  assert (LSV : reals s2 (nm_loc (move_named (st_next s) nm)) = r * reals s1 (nm_loc (move_named (st_next s) nm))).
  { destruct (C1 nm ILS) as (_ & _ & V1). destruct (C2 nm ILS) as (_ & _ & V2). cbv zeta in *. unfold reals.
    destruct (p_fixed (st_cell s (nm_loc nm))).
    - destruct RR as [->|RR]; [|discriminate]. rewrite V1, V2. ring.
    - destruct V1 as (a & D1 & ->). destruct V2 as (b & D2 & ->). rewrite (WS (nm_name nm)), D1 in D2. cbn [option_map] in D2.
      rewrite String.eqb_refl in D2. injection D2 as <-. reflexivity. }
  unfold full_lib in *. rewrite DE1 in L1. rewrite DE2. rewrite AT1 in L1. rewrite AT2. cbn [model_make move_model m_kernel] in *.
  assert (NO : full_noise s2 F2 = full_noise s1 F1).
  { unfold full_noise. rewrite AT1, AT2. cbn [model_make move_model m_noise]. destruct (m_noise (f_attr F)) as [z| |] eqn:EN; cbn [move_noise noise_of]; [|congruence|reflexivity].
    assert (Iz : In z (declared (f_attr F))) by (unfold declared; rewrite EN; apply in_app_iff; right; left; reflexivity).
    unfold reals. rewrite OTHER; auto.
    intros C. apply SAME in C; auto. subst z. clear -ND EN LSS.
    unfold declared in ND. rewrite EN in ND. destruct (m_kernel (f_attr F)); cbn [k_ls] in LSS; subst; cbn in ND; inversion ND; subst; apply H1; cbn; auto. }
  destruct (m_kernel (f_attr F)) as [lsc|lsc sm cc] eqn:EK; cbn [move_kernel kernel_make] in *; injection L1 as <-; cbn [k_ls] in LSS; subst lsc.
  - split; [reflexivity|]. split; [exact NO|]. split; [reflexivity|]. split; [exact Logic.I|exact LSV].
  - assert (Ism : In sm (declared (f_attr F))) by (apply DK; cbn [kernel_params]; apply in_app_iff; right; left; reflexivity).
    assert (SC : st_cell s2 (nm_loc (move_named (st_next s) sm)) = st_cell s1 (nm_loc (move_named (st_next s) sm))).
    { assert (FX : p_fixed (st_cell s (nm_loc sm)) = true) by (apply (SMF _ _ _ eq_refl)).
      destruct (C1 sm Ism) as (P1 & B1 & V1). destruct (C2 sm Ism) as (P2 & B2 & V2). cbv zeta in *. rewrite FX in V1, V2.
      apply param_eq; congruence. }
    rewrite SC. split; [reflexivity|]. split; [exact NO|]. split; [reflexivity|]. split; [|exact LSV].
    cbn [same_smoothness]. unfold reals. rewrite SC. reflexivity.
Qed.

Lemma trainable_smoothness s F train b n : trainable s F train b n ->
  forall ls sm c, m_kernel (f_attr F) = KMatern ls sm c -> p_fixed (st_cell s (nm_loc sm)) = true.
Proof.
  intros (_ & (K & L & (_ & _ & _ & OK)) & _) lsc sm c EK. unfold full_lib in L. rewrite EK in L.
  destruct (full_deformation F); [|discriminate]. injection L as <-. destruct OK as (_ & _ & OK).
  unfold formula_for in OK. destruct (p_fixed _); congruence.
Qed.
Lemma trainable_iso s F nm train train' b n : k_ls (m_kernel (f_attr F)) = LSScalar nm -> (0 < feature_count train')%nat ->
  trainable s F train b n -> trainable s F train' b n.
Proof.
  intros LSS F0 (B & (K & L & (O1 & O2 & O3 & O4)) & NF & KI). split; [exact B|]. split; [|auto].
  exists K. split; [exact L|].
  assert (D : lk_def K = Iso (f_metric F) nm).
  { unfold full_lib, full_deformation in L. rewrite LSS in L. destruct (m_kernel (f_attr F)); injection L as <-; reflexivity. }
  rewrite D in O1, O3. split; [rewrite D; exact O1|]. split; [exact F0|]. split; [|exact O4].
  rewrite D. intros f Hf. apply (O3 0%nat). exact O2.
Qed.
Lemma similar_distinct train train' N r : 0 < r ->
  (forall a b, (a < N)%nat -> (b < N)%nat -> row_dist train' train' a b = r ^ 2 * row_dist train train a b) ->
  forall a b, (a < N)%nat -> (b < N)%nat -> (exists f, (f < feature_count train)%nat /\ feature train a f <> feature train b f) ->
    exists f, (f < feature_count train')%nat /\ feature train' a f <> feature train' b f.
Proof.
  intros R S a b Ha Hb (f & Hf & NE).
  assert (R2 : 0 < r ^ 2) by (apply pow_lt; auto).
  assert (NZ : row_dist train' train' a b <> 0).
  { rewrite S by auto. intros Z. apply Rmult_integral in Z as [Z|Z]; [lra|]. apply row_dist_zero in Z. apply NE. apply Z; auto. }
  destruct (differs_dec (feature_count train') (feature train' a) (feature train' b)) as [X|X]; [|exact X].
  exfalso. apply NZ. apply row_dist_refl. exact X.
Qed.
Lemma similar_well_posed m train train' N b n c q r : 0 < r ->
  (forall a b, (a < N)%nat -> (b < N)%nat -> row_dist train' train' a b = r ^ 2 * row_dist train train a b) ->
  (forall x, (x < b)%nat -> (c x < N)%nat) -> (forall x j, (x < b)%nat -> (j < n)%nat -> (q x j < N)%nat) ->
  loo_well_posed m train b n c q -> loo_well_posed m train' b n c q.
Proof.
  intros R S HC HQ WP x Hx. destruct (WP x Hx) as [P|(P & D & D2)]; [left; exact P|right]. split; [exact P|]. split.
  - intros i j Hi Hj NE. exact (similar_distinct train train' N r R S (q x i) (q x j) (HQ x i Hx Hi) (HQ x j Hx Hj) (D i j Hi Hj NE)).
  - intros i Hi. exact (similar_distinct train train' N r R S (c x) (q x i) (HC x Hx) (HQ x i Hx Hi) (D2 i Hi)).
Qed.

Section Train.
Variable ls : lsolver.
Hypothesis EX : exact_solver ls.
Variable slogdet : nat -> mat -> R * R.
Variable eps : R.
Variables (gamma : R -> R) (kv : R -> R -> R).

Lemma objective_similar s F l kw draws train train' targets ix nn nn' N b n c q q' names x0 bounds t t' nm r :
  model_ok s F -> bounds_ok s F -> positive_bounds s F -> k_ls (m_kernel (f_attr F)) = LSScalar nm ->
  get_opt_params s (f_attr F) = Ok (names, x0, bounds) -> (f_kind F = FixedScale \/ ~ In "noise"%string names) ->
  trainable s F train b n -> loo_well_posed (full_noise s F) train b n c q ->
  batch_ok train targets ix nn N b n c q -> loss_kw_ok kw -> scores_vectors l ->
  dataset train' N -> index_matrix nn' b n N q' -> (forall x j, (x < b)%nat -> (j < n)%nat -> q' x j = q x j) -> (0 < feature_count train')%nat -> 0 < r ->
  (forall i j, (i < N)%nat -> (j < N)%nat -> row_dist train' train' i j = r ^ 2 * row_dist train train i j) ->
  (r = 1 \/ p_fixed (st_cell s (nm_loc nm)) = false) ->
  full_train_tensors F ix nn train targets = Ok t -> full_train_tensors F ix nn' train' targets = Ok t' ->
  forall x x', in_box x bounds -> in_box x' bounds -> with_scaled r (nm_name nm) names x x' -> exists v,
    obj_fn ls slogdet eps gamma kv s F l kw None draws (tr_pair t) (tr_cross t) (tr_nn_targets t) (tr_targets t) (combine names x) = Ok v /\
    obj_fn ls slogdet eps gamma kv s F l kw None draws (tr_pair t') (tr_cross t') (tr_nn_targets t') (tr_targets t') (combine names x') = Ok v.
Proof.
  intros MO BO PB LSS EO SK TR WP BK KW LS D' IM' QE F0 R SI RR Et Et' x x' BX BX' WS.
  assert (LF : leading_free s (k_ls (m_kernel (f_attr F)))) by (rewrite LSS; exact Logic.I).
  pose proof (trainable_iso s F nm train train' b n LSS F0 TR) as TR'.
  pose proof BK as (_ & HT & Hb & Hn & SIx & HC & IM).
  assert (BK' : batch_ok train' targets ix nn' N b n c q') by (split; [exact D'|auto 10]).
  assert (HC2 : forall y, (y < b)%nat -> (c y < N)%nat) by (intros y Hy; apply HC; auto).
  assert (HQ : forall y j, (y < b)%nat -> (j < n)%nat -> (q y j < N)%nat) by (intros y j Hy Hj; apply (proj2 IM y j Hy Hj)).
  assert (WP' : loo_well_posed (full_noise s F) train' b n c q').
  { pose proof (similar_well_posed _ train train' N b n c q r R SI HC2 HQ WP) as W. intros y Hy.
    destruct (W y Hy) as [P|(P & D1 & D2)]; [left; exact P|right; split; [exact P|split]].
    - intros i j Hi Hj NE. rewrite !QE by auto. apply D1; auto.
    - intros i Hi. rewrite QE by auto. apply D2; auto. }
  destruct (candidate_value ls EX slogdet eps gamma kv s F l kw draws train targets ix nn N b n c q names x0 bounds t
    MO BO PB LF EO SK TR WP BK KW LS Et x BX) as (s1 & F1 & v & E1 & O1 & V1 & LV1 & TR1 & WP1).
  destruct (candidate_value ls EX slogdet eps gamma kv s F l kw draws train' targets ix nn' N b n c q' names x0 bounds t'
    MO BO PB LF EO SK TR' WP' BK' KW LS Et' x' BX') as (s2 & F2 & v' & E2 & O2 & V2 & LV2 & TR2 & WP2).
  exists v. split; [exact V1|]. rewrite V2. f_equal.
  pose proof TR1 as (B1 & (K & L1 & OK) & _).
  destruct (two_candidates s F names x0 bounds x x' s1 F1 s2 F2 nm K r MO PB EO BX BX' E1 O1 E2 O2 LSS (trainable_smoothness s F train b n TR) WS RR L1)
    as (L2 & NO & IS & SM & LV).
  assert (SE : forall f c, scale_of (lk_def K) c [] f = c (nm_loc (move_named (st_next s) nm))).
  { intros f c0. unfold isotropic in IS. destruct (lk_def K); cbn [scale_of kw_or]; subst; try (rewrite IS; reflexivity). destruct IS. }
  assert (LP : reals s1 (nm_loc (move_named (st_next s) nm)) <> 0).
  { destruct OK as (_ & P1 & P & _). pose proof (P 0%nat P1) as H. rewrite SE in H. lra. }
  destruct (similar_cov gamma kv K _ (reals s1) (reals s2) train train train' train' N N r IS SM R LP LV (conj SI SI)) as [SA _].
  destruct O1 as (_ & _ & _ & _ & _ & KI1 & SC1). destruct O2 as (_ & _ & _ & _ & _ & KI2 & SC2).
  apply (loo_same gamma kv s1 F1 s2 F2 l kw train train' targets b n c q q' v v' K K); auto; try congruence.
  - apply well_posed_ns; auto. apply (loo_wp _ _ _ _ c). exact WP1.
  - intros y i j Hy Hi Hj. rewrite NO. unfold nbr_matrix, plus_diag. rewrite !QE by auto. rewrite SA by auto. reflexivity.
  - intros y j Hy Hj. rewrite QE by auto. apply SA; auto.
Qed.
End Train.
