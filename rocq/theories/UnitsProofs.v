(** Proofs about responses measured in another unit, and about training after a change of coordinates. *)
From Coq Require Import Lia Lra.
From Verif Require Import Base BaseFacts NdModel NdFacts RSum LinAlgModel LinAlgSpec LinAlgFacts
  GPModel NoiseModel MuyGPSModel MuyGPSProofs GPSpec GPTheorems ScaleSpec ScaleProofs TensorModel TensorSpec TensorProofs
  HyperModel HyperSpec NamedModel NamedSpec NamedProofs KernelModel KernelSpec FlowModel FlowSpec FlowProofs PointwiseSpec LibSpec LibProofs
  LossModel LossSpec LossProofs ChassisModel ChassisSpec ChassisProofs ObjectiveProofs MultiModel DriverModel ClassifyModel WorkModel WorkSpec WorkProofs WorkLemmas
  NeighborsModel NeighborsSpec NeighborsProofs BatchProofs BatchLemmas
  TrainModel TrainSpec TrainProofs TrainProofs2 TrainProofs3 BestProofs UnitsSpec.
Local Open Scope R_scope.

(** ** Kriging and scale of rescaled data *)
Lemma kriging_scaled n A A' k k' y y' a v v' : nonsingular n A ->
  (forall i j, (i < n)%nat -> (j < n)%nat -> A' i j = A i j) -> (forall i, (i < n)%nat -> k' i = k i) ->
  (forall i, (i < n)%nat -> y' i = a * y i) -> kriging n A k y v -> kriging n A' k' y' v' -> v' = a * v.
Proof.
  intros NS HA Hk Hy (w & W & ->) (w' & W' & ->).
  assert (W2 : solves n A w' k).
  { intros i Hi. rewrite <- Hk by auto. rewrite <- (W' i Hi). apply rsum_ext. intros j Hj. rewrite HA by auto. reflexivity. }
  pose proof (solves_unique n A w w' k NS W W2) as U. unfold dot. rewrite <- rsum_scal. apply rsum_ext. intros j Hj. rewrite U, Hy by auto. ring.
Qed.
Lemma ml_scale_scaled b n A A' y y' a s s' : (forall x, (x < b)%nat -> nonsingular n (A x)) ->
  (forall x i j, (x < b)%nat -> (i < n)%nat -> (j < n)%nat -> A' x i j = A x i j) ->
  (forall x i, (x < b)%nat -> (i < n)%nat -> y' x i = a * y x i) -> ml_scale b n A y s -> ml_scale b n A' y' s' -> s' = a ^ 2 * s.
Proof.
  intros NS HA Hy (q & (c & C & ->) & ->) (q' & (c' & C' & ->) & ->).
  assert (E : rsum b (fun x => dot n (y' x) (c' x)) = a ^ 2 * rsum b (fun x => dot n (y x) (c x))).
  { rewrite <- rsum_scal. apply rsum_ext. intros x Hx.
    assert (W : solves n (A x) (c' x) (fun i => a * y x i)).
    { intros i Hi. rewrite <- Hy by auto. rewrite <- (C' x Hx i Hi). apply rsum_ext. intros j Hj. rewrite HA by auto. reflexivity. }
    assert (W1 : solves n (A x) (fun i => a * c x i) (fun i => a * y x i)).
    { intros i Hi. rewrite <- (C x Hx i Hi), <- rsum_scal. apply rsum_ext. intros; ring. }
    pose proof (solves_unique n (A x) _ _ _ (NS x Hx) W1 W) as U.
    unfold dot. rewrite <- rsum_scal. apply rsum_ext. intros j Hj. rewrite <- U, Hy by auto. ring. }
  rewrite E. unfold Rdiv. ring.
Qed.
Lemma ml_scale_pos b n A y s : (0 < b)%nat -> (0 < n)%nat -> (forall x, (x < b)%nat -> pd n (A x)) ->
  (exists x i, (x < b)%nat /\ (i < n)%nat /\ y x i <> 0) -> ml_scale b n A y s -> 0 < s.
Proof.
  intros Hb Hn PD (x0 & i0 & Hx0 & Hi0 & N0) (q & (c & C & ->) & ->).
  assert (Q : forall x, (x < b)%nat -> dot n (y x) (c x) = quad n (A x) (c x)).
  { intros x Hx. rewrite (quad_solves n (A x) (c x) (y x) (C x Hx)). unfold dot. apply rsum_ext. intros; ring. }
  assert (NN : forall x, (x < b)%nat -> 0 <= dot n (y x) (c x)).
  { intros x Hx. rewrite Q by auto. destruct (classic_zero n (c x)) as [Z|NZ]; [|left; apply (PD x Hx); exact NZ].
    right. symmetry. unfold quad. rewrite (rsum_ext n _ (fun _ => 0)); [apply rsum_0|]. intros i Hi.
    rewrite (rsum_ext n _ (fun _ => 0)); [apply rsum_0|]. intros j Hj. rewrite (Z i Hi). ring. }
  assert (P0 : 0 < dot n (y x0) (c x0)).
  { rewrite Q by auto. apply (PD x0 Hx0). destruct (classic_zero n (c x0)) as [Z|NZ]; [|exact NZ]. exfalso. apply N0.
    rewrite <- (C x0 Hx0 i0 Hi0). rewrite (rsum_ext n _ (fun _ => 0)); [apply rsum_0|]. intros j Hj. rewrite (Z j Hj). ring. }
  pose proof (rsum_term_le b _ x0 NN Hx0) as T. cbn beta in T.
  apply Rdiv_lt_0_compat; [lra|]. apply Rmult_lt_0_compat; apply lt_0_INR; lia.
Qed.

(** ** Losses *)
Lemma huber_units a d r : a <> 0 -> huber_entry (a * d) (a * r) = a ^ 2 * huber_entry d r.
Proof.
  intros A. unfold huber_entry. destruct (Req_dec d 0) as [->|D]; [ring|].
  replace (a * r / (a * d)) with (r / d) by (field; auto). ring.
Qed.
Lemma lool_units a r v : a <> 0 -> 0 < v -> lool_entry (a * r) (a ^ 2 * v) = lool_entry r v + ln (a ^ 2).
Proof.
  intros A V. assert (A2 : 0 < a ^ 2) by (rewrite <- Rsqr_pow2; apply Rlt_0_sqr; auto).
  unfold lool_entry. rewrite ln_mult by auto. replace ((a * r) ^ 2 / (a ^ 2 * v)) with (r ^ 2 / v) by (field; split; lra). ring.
Qed.
Lemma looph_units a d r v : a <> 0 -> 0 < v -> looph_entry d (a * r) (a ^ 2 * v) = looph_entry d r v + ln (a ^ 2).
Proof.
  intros A V. assert (A2 : 0 < a ^ 2) by (rewrite <- Rsqr_pow2; apply Rlt_0_sqr; auto).
  unfold looph_entry. rewrite ln_mult by auto. destruct (Req_dec d 0) as [->|D]; [ring|].
  replace ((a * r) ^ 2 / (d ^ 2 * (a ^ 2 * v))) with (r ^ 2 / (d ^ 2 * v)) by (field; repeat split; lra). ring.
Qed.

Section Value.
Variables (gamma : R -> R) (kv : R -> R -> R).

(** Two models with the same covariances and scale treatment, on data whose responses differ by a factor. *)
Lemma loo_transform s F s' F' l kw kw' train train' targets targets' b n c q v v' a K K' :
  a <> 0 -> (0 < b)%nat -> (0 < n)%nat -> full_lib s F = Some K -> full_lib s' F' = Some K' ->
  f_kind F' = f_kind F -> f_scale F' = f_scale F ->
  let k := lk_cov gamma kv K (feature_count train) (reals s) [] in let k' := lk_cov gamma kv K' (feature_count train') (reals s') [] in
  (forall x, (x < b)%nat -> pd n (nbr_matrix k (full_noise s F) train q x)) ->
  (forall x i j, (x < b)%nat -> (i < n)%nat -> (j < n)%nat ->
     nbr_matrix k' (full_noise s' F') train' q x i j = nbr_matrix k (full_noise s F) train q x i j) ->
  (forall x j, (x < b)%nat -> (j < n)%nat -> kcov k' train' train' (c x) (q x j) = kcov k train train (c x) (q x j)) ->
  (forall x, (x < b)%nat -> at_ targets' [c x] = a * at_ targets [c x]) ->
  (forall x j, (x < b)%nat -> (j < n)%nat -> at_ targets' [q x j] = a * at_ targets [q x j]) ->
  units_kw l a kw kw' ->
  loo_value gamma kv s F l kw train targets b n c q v -> loo_value gamma kv s' F' l kw' train' targets' b n c q v' ->
  (l = Lool \/ l = Looph -> (exists it, f_kind F = AnalyticScale it) /\ exists x j, (x < b)%nat /\ (j < n)%nat /\ at_ targets [q x j] <> 0) ->
  in_units l a b v v'.
Proof.
  intros A Hb Hn L L' KI SC k k' PD AE KE TC TQ KW (K0 & mean & var & sc & Lo & EL & P & VP & SU & BL & ->)
    (K0' & mean' & var' & sc' & Lo' & EL' & P' & VP' & SU' & BL' & ->) AN.
  rewrite L in EL. injection EL as <-. rewrite L' in EL'. injection EL' as <-. fold k in P, SU. fold k' in P', SU'.
  assert (NS : forall x, (x < b)%nat -> nonsingular n (nbr_matrix k (full_noise s F) train q x)) by (intros x Hx; apply pd_nonsingular; auto).
  assert (ME : forall x, (x < b)%nat -> mean' x = a * mean x).
  { intros x Hx. destruct (P x Hx) as (M1 & _). destruct (P' x Hx) as (M2 & _).
    refine (kriging_scaled n _ _ _ _ _ _ a _ _ (NS x Hx) _ _ _ M1 M2); auto. }
  assert (VE : forall x, (x < b)%nat -> var' x = var x).
  { intros x Hx. destruct (P x Hx) as (_ & w & W & ->). destruct (P' x Hx) as (_ & w' & W' & ->). f_equal.
    rewrite <- (Rmult_1_l (dot n w _)).
    apply (kriging_scaled n (nbr_matrix k (full_noise s F) train q x) (nbr_matrix k' (full_noise s' F') train' q x)
      (fun j => kcov k train train (c x) (q x j)) (fun j => kcov k' train' train' (c x) (q x j))
      (fun j => kcov k train train (c x) (q x j)) (fun j => kcov k' train' train' (c x) (q x j)) 1 _ _ (NS x Hx)).
    - intros; apply AE; auto.
    - intros; apply KE; auto.
    - intros; rewrite KE by auto; ring.
    - exists w. auto.
    - exists w'. auto. }
  assert (SE : forall it, f_kind F = AnalyticScale it -> sc' = a ^ 2 * sc).
  { intros it E. unfold scale_used in SU, SU'. rewrite KI, E in SU'. rewrite E in SU.
    refine (ml_scale_scaled b n _ _ _ _ a sc sc' NS AE _ SU SU'). auto. }
  assert (SP : forall it, f_kind F = AnalyticScale it -> (exists x j, (x < b)%nat /\ (j < n)%nat /\ at_ targets [q x j] <> 0) -> 0 < sc).
  { intros it E NZ. unfold scale_used in SU. rewrite E in SU. apply (ml_scale_pos b n _ _ sc Hb Hn PD NZ SU). }
  destruct l; cbn [batch_loss in_units units_kw] in *; try discriminate; injection BL as <-; injection BL' as <-.
  - rewrite (rsum_ext b (fun x => (mean' x - at_ targets' [c x]) * ((mean' x - at_ targets' [c x]) * 1))
      (fun x => a ^ 2 * ((mean x - at_ targets [c x]) * ((mean x - at_ targets [c x]) * 1)))).
    + rewrite rsum_scal. unfold Rdiv. ring.
    + intros x Hx. rewrite ME, TC by auto. ring.
  - destruct (AN (or_introl eq_refl)) as ((it & E) & NZ). pose proof (SE it E) as ->. pose proof (SP it E NZ).
    rewrite (rsum_ext b _ (fun x => lool_entry (mean x - at_ targets [c x]) (sc * var x) + ln (a ^ 2))).
    + rewrite rsum_plus, rsum_const. ring.
    + intros x Hx. rewrite ME, TC, VE by auto. rewrite <- Rmult_minus_distr_l, Rmult_assoc. apply lool_units; auto.
      apply Rmult_lt_0_compat; [auto|apply VP; auto].
  - rewrite KW. rewrite (rsum_ext b _ (fun x => a ^ 2 * huber_entry (kw_or kw "boundary_scale" (3/2)) (at_ targets [c x] - mean x))).
    + rewrite rsum_scal. ring.
    + intros x Hx. rewrite ME, TC by auto. rewrite <- Rmult_minus_distr_l. apply huber_units; auto.
  - destruct (AN (or_intror eq_refl)) as ((it & E) & NZ). pose proof (SE it E) as ->. pose proof (SP it E NZ). rewrite KW.
    rewrite (rsum_ext b _ (fun x => looph_entry (kw_or kw "boundary_scale" 3) (mean x - at_ targets [c x]) (sc * var x) + ln (a ^ 2))).
    + rewrite rsum_plus, rsum_const. ring.
    + intros x Hx. rewrite ME, TC, VE by auto. rewrite <- Rmult_minus_distr_l, Rmult_assoc. apply looph_units; auto.
      apply Rmult_lt_0_compat; [auto|apply VP; auto].
Qed.
End Value.
