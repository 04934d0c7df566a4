(** Proofs about exact leave-one-out cross-validation. *)
From Coq Require Import Lia Lra.
From Verif Require Import Base BaseFacts NdModel NdFacts RSum LinAlgModel LinAlgSpec LinAlgFacts Gauss GaussPd KernelPd WellPosedProofs
  GPModel NoiseModel MuyGPSModel MuyGPSProofs GPSpec GPTheorems ScaleSpec ScaleProofs TensorModel TensorSpec TensorProofs
  HyperModel HyperSpec NamedModel NamedSpec NamedProofs KernelModel KernelSpec FlowModel FlowSpec FlowProofs PointwiseSpec LibSpec LibProofs
  LossModel LossSpec LossProofs ChassisModel ChassisSpec ChassisProofs ObjectiveProofs MultiModel DriverModel ClassifyModel WorkModel WorkSpec WorkProofs WorkLemmas
  NeighborsModel NeighborsSpec NeighborsProofs BatchProofs BatchLemmas
  TrainModel TrainSpec TrainProofs TrainProofs2 TrainProofs3 BestProofs UnitsProofs UnitsProofs2 LocalSpec ExactLooSpec.
Local Open Scope R_scope.

(** ** Linear algebra *)
Lemma others_perm N n i q : S n = N -> (i < N)%nat -> (forall j, (j < n)%nat -> (q j < N)%nat /\ q j <> i) ->
  (forall a b, (a < n)%nat -> (b < n)%nat -> q a = q b -> a = b) ->
  perm_on N (fun j => if (j <? n)%nat then q j else i).
Proof.
  intros E Hi B J. subst N. split.
  - intros j Hj. destruct (Nat.ltb_spec j n); [apply B; auto|exact Hi].
  - intros a b Ha Hb. destruct (Nat.ltb_spec a n) as [La|La], (Nat.ltb_spec b n) as [Lb|Lb]; intros Eq.
    + apply J; auto.
    + exfalso. apply (proj2 (B a La)). exact Eq.
    + exfalso. apply (proj2 (B b Lb)). symmetry. exact Eq.
    + lia.
Qed.
Lemma others_sum N n i q (f : nat -> R) : S n = N -> (i < N)%nat -> (forall j, (j < n)%nat -> (q j < N)%nat /\ q j <> i) ->
  (forall a b, (a < n)%nat -> (b < n)%nat -> q a = q b -> a = b) ->
  rsum n (fun j => f (q j)) = rsum N f - f i.
Proof.
  intros E Hi B J. pose proof (others_perm N n i q E Hi B J) as PM.
  rewrite <- (rsum_perm N _ f PM). rewrite <- E. cbn [rsum].
  rewrite (rsum_ext n (fun j => f (if (j <? n)%nat then q j else i)) (fun j => f (q j))).
  - replace (n <? n)%nat with false by (symmetry; apply Nat.ltb_ge; lia). ring.
  - intros j Hj. replace (j <? n)%nat with true by (symmetry; apply Nat.ltb_lt; auto). reflexivity.
Qed.

Section Linear.
Variables (N n i : nat) (q : nat -> nat) (A : nat -> nat -> R) (y alpha beta : nat -> R) (kap : R).
Hypothesis EN : S n = N.
Hypothesis Hi : (i < N)%nat.
Hypothesis HB : forall j, (j < n)%nat -> (q j < N)%nat /\ q j <> i.
Hypothesis HJ : forall a b, (a < n)%nat -> (b < n)%nat -> q a = q b -> a = b.
Hypothesis SY : symmetric N A.
Hypothesis SA : solves N A alpha y.
Hypothesis SB : solves N A beta (fun b => if (i =? b)%nat then 1 else 0).
Hypothesis EK : kap = beta i.
Hypothesis PK : 0 < kap.

Lemma beta_y : dot N beta y = alpha i.
Proof.
  unfold dot. rewrite (rsum_ext N _ (fun a => rsum N (fun b => beta a * A a b * alpha b))).
  2:{ intros a Ha. rewrite <- (SA a Ha), <- rsum_scal. apply rsum_ext. intros; ring. }
  rewrite rsum_swap. rewrite (rsum_ext N _ (fun b => delta i b * alpha b)).
  - apply rsum_delta_l. exact Hi.
  - intros b Hb. unfold delta. rewrite <- (SB b Hb), <- rsum_scal_r. apply rsum_ext. intros a Ha. rewrite (SY a b) by auto. ring.
Qed.
Lemma loo_weights : solves n (fun a b => A (q a) (q b)) (fun j => - beta (q j) / kap) (fun j => A i (q j)).
Proof.
  intros a Ha. destruct (HB a Ha) as [La Na].
  rewrite (others_sum N n i q (fun j => A (q a) j * (- beta j / kap)) EN Hi HB HJ).
  rewrite (rsum_ext N _ (fun j => (- / kap) * (A (q a) j * beta j))) by (intros; field; lra).
  rewrite rsum_scal, (SB (q a) La). replace (i =? q a)%nat with false by (symmetry; apply Nat.eqb_neq; auto).
  rewrite <- EK, (SY (q a) i) by auto. field. lra.
Qed.
Lemma loo_mean : dot n (fun j => - beta (q j) / kap) (fun j => y (q j)) = y i - alpha i / kap.
Proof.
  unfold dot. rewrite (others_sum N n i q (fun j => - beta j / kap * y j) EN Hi HB HJ).
  rewrite (rsum_ext N _ (fun j => (- / kap) * (beta j * y j))) by (intros; field; lra).
  rewrite rsum_scal. fold (dot N beta y). rewrite beta_y, <- EK. field. lra.
Qed.
Lemma loo_var : dot n (fun j => - beta (q j) / kap) (fun j => A i (q j)) = A i i - 1 / kap.
Proof.
  unfold dot. rewrite (others_sum N n i q (fun j => - beta j / kap * A i j) EN Hi HB HJ).
  rewrite (rsum_ext N _ (fun j => (- / kap) * (A i j * beta j))) by (intros; field; lra).
  rewrite rsum_scal, (SB i Hi), Nat.eqb_refl, <- EK. field. lra.
Qed.
Lemma loo_coeffs : solves n (fun a b => A (q a) (q b)) (fun j => alpha (q j) - alpha i / kap * beta (q j)) (fun j => y (q j)).
Proof.
  intros a Ha. destruct (HB a Ha) as [La Na].
  rewrite (others_sum N n i q (fun j => A (q a) j * (alpha j - alpha i / kap * beta j)) EN Hi HB HJ).
  rewrite (rsum_ext N _ (fun j => A (q a) j * alpha j - (alpha i / kap) * (A (q a) j * beta j))) by (intros; field; lra).
  rewrite rsum_minus, rsum_scal, (SB (q a) La), (SA (q a) La). replace (i =? q a)%nat with false by (symmetry; apply Nat.eqb_neq; auto).
  rewrite <- EK. field. lra.
Qed.
Lemma loo_quad : dot n (fun j => y (q j)) (fun j => alpha (q j) - alpha i / kap * beta (q j)) = dot N y alpha - alpha i ^ 2 / kap.
Proof.
  unfold dot at 1. rewrite (others_sum N n i q (fun j => y j * (alpha j - alpha i / kap * beta j)) EN Hi HB HJ).
  rewrite (rsum_ext N _ (fun j => y j * alpha j - (alpha i / kap) * (beta j * y j))) by (intros; field; lra).
  rewrite rsum_minus, rsum_scal. fold (dot N y alpha). fold (dot N beta y). rewrite beta_y, <- EK. field. lra.
Qed.
End Linear.

Lemma classic_ex N (v : nat -> R) : (forall b, (b < N)%nat -> v b = 0) \/ exists b, (b < N)%nat /\ v b <> 0.
Proof.
  induction N as [|N IH]; [left; intros; lia|]. destruct IH as [A|(b & Hb & NE)]; [|right; exists b; split; [lia|exact NE]].
  destruct (Req_dec (v N) 0) as [Z|Z]; [left|right; exists N; split; [lia|exact Z]].
  intros b Hb. destruct (Nat.eq_dec b N) as [->|]; [exact Z|apply A; lia].
Qed.
Lemma loo_quantities_exist N A y : pd N A -> exists alpha kappa, loo_quantities N A y alpha kappa.
Proof.
  intros PD. pose proof (pd_nonsingular N A PD) as NS.
  destruct (proj1 (proj2 gauss_exact N 1%nat A (fun i _ => y i)) NS) as (X & EX0).
  destruct (proj1 (proj2 gauss_exact N N A (fun i j => if (j =? i)%nat then 1 else 0)) NS) as (Z & EZ0).
  pose proof (proj1 gauss_exact _ _ _ _ _ EX0) as SX. pose proof (proj1 gauss_exact _ _ _ _ _ EZ0) as SZ.
  exists (fun i => X i 0%nat), (fun a => Z a a). split; [apply (SX 0%nat); lia|]. intros a Ha.
  assert (SB : solves N A (fun b => Z b a) (fun b => if (a =? b)%nat then 1 else 0)) by exact (SZ a Ha).
  split; [|exists (fun b => Z b a); split; [exact SB|reflexivity]].
  assert (Q : quad N A (fun b => Z b a) = Z a a).
  { rewrite (quad_solves _ _ _ _ SB). unfold dot. rewrite (rsum_ext N _ (fun b => delta a b * Z b a)) by (intros; unfold delta; ring).
    apply (rsum_delta_l N a (fun b => Z b a)). exact Ha. }
  rewrite <- Q. apply PD. pose proof (SB a Ha) as X0. cbn beta in X0. rewrite Nat.eqb_refl in X0.
  destruct (Req_dec (Z a a) 0) as [Z0|NZ]; [|exists a; auto].
  destruct (classic_ex N (fun b => Z b a)) as [AZ|EZ]; [|exact EZ]. exfalso.
  rewrite (rsum_ext N _ (fun _ => 0)) in X0 by (intros j Hj; rewrite AZ by auto; ring).
  rewrite rsum_0 in X0. lra.
Qed.

(** ** Losses do not depend on the order of the batch *)
Lemma batch_loss_ext l kw b y y' mean mean' var var' sc : (forall x, (x < b)%nat -> y x = y' x) -> (forall x, (x < b)%nat -> mean x = mean' x) ->
  (forall x, (x < b)%nat -> var x = var' x) -> batch_loss l kw b y mean var sc = batch_loss l kw b y' mean' var' sc.
Proof.
  intros Hy Hm Hv. destruct l; cbn [batch_loss]; try reflexivity.
  - apply (f_equal Some). unfold Rdiv. apply (f_equal (fun z => z * / INR b)). apply rsum_ext; intros x Hx; rewrite Hy, Hm by auto; reflexivity.
  - apply (f_equal Some). apply rsum_ext; intros x Hx; rewrite Hy, Hm, ?Hv by auto; reflexivity.
  - apply (f_equal Some). apply rsum_ext; intros x Hx; rewrite Hy, Hm, ?Hv by auto; reflexivity.
  - apply (f_equal Some). apply rsum_ext; intros x Hx; rewrite Hy, Hm, ?Hv by auto; reflexivity.
Qed.
Lemma batch_loss_perm l kw b c y mean var sc : perm_on b c ->
  batch_loss l kw b (fun x => y (c x)) (fun x => mean (c x)) (fun x => var (c x)) sc = batch_loss l kw b y mean var sc.
Proof.
  intros PM. destruct l; cbn [batch_loss]; try reflexivity; apply (f_equal Some).
  - unfold Rdiv. apply (f_equal (fun z => z * / INR b)). apply (rsum_perm b c (fun x => (mean x - y x) ^ 2) PM).
  - apply (rsum_perm b c (fun x => lool_entry (mean x - y x) (sc * var x)) PM).
  - apply (rsum_perm b c (fun x => huber_entry (kw_or kw "boundary_scale" (3 / 2)) (y x - mean x)) PM).
  - apply (rsum_perm b c (fun x => looph_entry (kw_or kw "boundary_scale" 3) (mean x - y x) (sc * var x)) PM).
Qed.

Section Exact.
Variables (gamma : R -> R) (kv : R -> R -> R).

Lemma full_pd K cur m train N : lk_ok K (feature_count train) cur [] -> full_sound m train N ->
  pd N (full_matrix (lk_cov gamma kv K (feature_count train) cur []) m train).
Proof.
  intros OK SN. change (pd N (plus_diag (fun i j => kcov (lk_cov gamma kv K (feature_count train) cur []) train train i j) (fun _ => noise_at m None 0 0))).
  destruct SN as [P|[P D]].
  - apply plus_diag_pd; auto. apply (lk_cov_psd gamma kv K (feature_count train) cur [] (fun i f => feature train i f) N OK).
  - apply plus_diag_pd'; auto. apply (lk_cov_pd gamma kv K (feature_count train) cur [] (fun i f => feature train i f) N OK). auto.
Qed.
Lemma full_sym K F cur m train N : symmetric N (full_matrix (lk_cov gamma kv K F cur []) m train).
Proof.
  intros i j Hi Hj. unfold full_matrix. rewrite (lk_cov_sym gamma kv K F cur [] train i j), (Nat.eqb_sym j i). reflexivity.
Qed.

Lemma exact_core s F train targets N n c q : S n = N -> perm_on N c ->
  (forall x, (x < N)%nat -> others_of N n (c x) (q x)) ->
  trainable s F train N n -> uniform_noise (full_noise s F) -> full_sound (full_noise s F) train N ->
  exists K alpha kappa, full_lib s F = Some K /\
    let k := lk_cov gamma kv K (feature_count train) (reals s) [] in
    let m := full_noise s F in let y := fun a => at_ targets [a] in
    loo_quantities N (full_matrix k m train) y alpha kappa /\
    (forall mean var, loo_predictions k m train targets N n c q mean var ->
       forall x, (x < N)%nat -> mean x = y (c x) - alpha (c x) / kappa (c x) /\ var x = 1 / kappa (c x) - noise_at m None 0 0) /\
    (forall scale, scale_used F k m train targets N n q scale -> exact_scale F N y alpha kappa scale).
Proof.
  intros EN PM OT (_ & (K & EK & OK) & _ & _) UN SN.
  set (m := full_noise s F) in *.
  set (k := lk_cov gamma kv K (feature_count train) (reals s) []) in *.
  set (A := full_matrix k m train). set (y := fun a => at_ targets [a]).
  assert (PD : pd N A) by (apply full_pd; auto). assert (SY : symmetric N A) by apply full_sym.
  destruct (loo_quantities_exist N A y PD) as (alpha & kappa & LQ). pose proof LQ as (SA & KA).
  exists K, alpha, kappa. split; [exact EK|]. fold m k A. change (fun a => at_ targets [a]) with y. cbv zeta.
  split; [exact LQ|].
  assert (UNI : forall x i, noise_at m None x i = noise_at m None 0 0) by (intros x i; destruct UN as [->|[u ->]]; reflexivity).
  assert (AE : forall x i j, (x < N)%nat -> (i < n)%nat -> (j < n)%nat -> nbr_matrix k m train q x i j = A (q x i) (q x j)).
  { intros x i j Hx Hi Hj. destruct (OT x Hx) as [_ J]. unfold nbr_matrix, plus_diag, A, full_matrix. rewrite UNI.
    destruct (Nat.eqb_spec i j) as [->|NE]; [rewrite Nat.eqb_refl; reflexivity|].
    destruct (Nat.eqb_spec (q x i) (q x j)) as [EQ|]; [|reflexivity]. apply J in EQ; auto. contradiction. }
  assert (CE : forall x j, (x < N)%nat -> (j < n)%nat -> kcov k train train (c x) (q x j) = A (c x) (q x j)).
  { intros x j Hx Hj. destruct (OT x Hx) as [B _]. unfold A, full_matrix.
    replace (c x =? q x j)%nat with false by (symmetry; apply Nat.eqb_neq; intros E; apply (proj2 (B j Hj)); auto). ring. }
  assert (NS : forall x, (x < N)%nat -> nonsingular n (nbr_matrix k m train q x)).
  { intros x Hx. apply (pd_nonsingular n). apply (nbr_pd gamma kv K (reals s) [] m train N n q x OK); [|exact Hx].
    intros z Hz. destruct (OT z Hz) as [B J]. destruct SN as [P|[P D]].
    - left. intros i Hi. rewrite UNI. exact P.
    - right. split; [intros i Hi; rewrite UNI; exact P|]. intros i j Hi Hj NE. apply D; [apply B; auto|apply B; auto|]. intros E. apply NE, J; auto. }
  assert (DA : forall a, A a a = 1 + noise_at m None 0 0).
  { intros a. unfold A, full_matrix. rewrite Nat.eqb_refl. unfold k. rewrite self_cov by exact OK. reflexivity. }
  assert (LB : forall x, (x < N)%nat -> exists beta, (c x < N)%nat /\ 0 < kappa (c x) /\ kappa (c x) = beta (c x) /\
    solves N A beta (fun b => if (c x =? b)%nat then 1 else 0)).
  { intros x Hx. assert (Hc : (c x < N)%nat) by (apply PM; auto). destruct (KA (c x) Hc) as (KP & beta & SB & KE). exists beta. auto. }
  split.
  - intros mean var LP x Hx. destruct (OT x Hx) as [B J]. destruct (LB x Hx) as (beta & Hc & KP & KE & SB). destruct (LP x Hx) as (MX & w & W & VX).
    assert (LW : solves n (nbr_matrix k m train q x) (fun j => - beta (q x j) / kappa (c x)) (fun j => kcov k train train (c x) (q x j))).
    { intros i Hi. rewrite CE by auto.
      rewrite <- (loo_weights N n (c x) (q x) A beta (kappa (c x)) EN Hc B J SY SB KE KP i Hi).
      apply rsum_ext. intros j Hj. rewrite AE by auto. reflexivity. }
    split.
    + rewrite (kriging_det n _ _ _ _ _ _ _ _ (NS x Hx) (fun i j _ _ => eq_refl) (fun i _ => eq_refl) (fun i _ => eq_refl) MX
        (ex_intro _ _ (conj LW eq_refl))).
      apply (loo_mean N n (c x) (q x) A y alpha beta (kappa (c x)) EN Hc B J SY SA SB KE KP).
    + rewrite VX. assert (U : forall j, (j < n)%nat -> w j = - beta (q x j) / kappa (c x)) by exact (solves_unique n _ _ _ _ (NS x Hx) W LW).
      unfold dot. rewrite (rsum_ext n _ (fun j => - beta (q x j) / kappa (c x) * A (c x) (q x j))) by (intros j Hj; rewrite U, CE by auto; reflexivity).
      pose proof (loo_var N n (c x) (q x) A beta (kappa (c x)) EN Hc B J SB KE KP) as LV. unfold dot in LV. rewrite LV, DA. ring.
  - intros scale SC. unfold exact_scale. unfold scale_used in SC. destruct (f_kind F); try exact SC. destruct SC as (qq & (co & CO & ->) & ->).
    replace (N - 1)%nat with n by lia. unfold Rdiv. f_equal.
    rewrite <- (rsum_perm N c (fun a => dot N y alpha - alpha a ^ 2 * / kappa a) PM). apply rsum_ext. intros x Hx.
    destruct (OT x Hx) as [B J]. destruct (LB x Hx) as (beta & Hc & KP & KE & SB).
    assert (CO' : solves n (nbr_matrix k m train q x) (fun j => alpha (q x j) - alpha (c x) / kappa (c x) * beta (q x j)) (fun j => y (q x j))).
    { intros i Hi. rewrite <- (loo_coeffs N n (c x) (q x) A y alpha beta (kappa (c x)) EN Hc B J SA SB KE KP i Hi).
      apply rsum_ext. intros j Hj. rewrite AE by auto. reflexivity. }
    pose proof (loo_quad N n (c x) (q x) A y alpha beta (kappa (c x)) EN Hc B J SY SA SB KE KP) as E'. unfold Rdiv in E'. rewrite <- E'.
    unfold dot. apply rsum_ext. intros j Hj. rewrite (solves_unique n _ _ _ _ (NS x Hx) (CO x Hx) CO' j Hj). reflexivity.
Qed.
Lemma exact_value s F l kw train targets N n c q v : S n = N -> perm_on N c ->
  (forall x, (x < N)%nat -> others_of N n (c x) (q x)) ->
  trainable s F train N n -> uniform_noise (full_noise s F) -> full_sound (full_noise s F) train N ->
  loo_value gamma kv s F l kw train targets N n c q v -> exact_loo_value gamma kv s F l kw train targets N v.
Proof.
  intros EN PM OT TR UN SN (K0 & mean & var & scale & L & EK0 & LP & _ & SC & EL & ->).
  destruct (exact_core s F train targets N n c q EN PM OT TR UN SN) as (K & alpha & kappa & EK & LQ & LM & ES).
  assert (K0 = K) by congruence. subst K0. exists K, alpha, kappa, scale, L. split; [exact EK|]. cbv zeta.
  split; [exact LQ|]. split; [apply ES; exact SC|]. split; [|reflexivity]. rewrite <- EL.
  rewrite <- (batch_loss_perm l kw N c (fun a => at_ targets [a]) (fun a => at_ targets [a] - alpha a / kappa a)
    (fun a => 1 / kappa a - noise_at (full_noise s F) None 0 0) scale PM).
  apply batch_loss_ext; [reflexivity| |]; intros x Hx; symmetry; apply (LM mean var LP x Hx).
Qed.
Lemma exact_scale_val s F K train targets N n c q sc : S n = N -> perm_on N c ->
  (forall x, (x < N)%nat -> others_of N n (c x) (q x)) ->
  trainable s F train N n -> uniform_noise (full_noise s F) -> full_sound (full_noise s F) train N -> full_lib s F = Some K ->
  scale_used F (lk_cov gamma kv K (feature_count train) (reals s) []) (full_noise s F) train targets N n q sc ->
  exact_scale_value gamma kv s F train targets N sc.
Proof.
  intros EN PM OT TR UN SN EK0 SC.
  destruct (exact_core s F train targets N n c q EN PM OT TR UN SN) as (K' & alpha & kappa & EK & LQ & LM & ES).
  assert (K' = K) by congruence. subst K'. exists K, alpha, kappa. auto.
Qed.
Lemma loo_quantities_unique N A y al ka al' ka' : nonsingular N A -> loo_quantities N A y al ka -> loo_quantities N A y al' ka' ->
  forall a, (a < N)%nat -> al a = al' a /\ ka a = ka' a.
Proof.
  intros NS (S1 & H1) (S2 & H2) a Ha. split; [apply (solves_unique N A al al' y NS S1 S2 a Ha)|].
  destruct (H1 a Ha) as (_ & b1 & B1 & ->). destruct (H2 a Ha) as (_ & b2 & B2 & ->). apply (solves_unique N A b1 b2 _ NS B1 B2 a Ha).
Qed.
Lemma exact_value_unique s F l kw train targets N n v v' : trainable s F train N n -> full_sound (full_noise s F) train N ->
  exact_loo_value gamma kv s F l kw train targets N v -> exact_loo_value gamma kv s F l kw train targets N v' -> v = v'.
Proof.
  intros (_ & (K & EK & OK) & _) SN (K1 & al & ka & sc & L & E1 & LQ & SC & EL & ->) (K2 & al' & ka' & sc' & L' & E2 & LQ' & SC' & EL' & ->).
  assert (K1 = K) by congruence. assert (K2 = K) by congruence. subst K1 K2.
  pose proof (pd_nonsingular N _ (full_pd K (reals s) (full_noise s F) train N OK SN)) as NS.
  pose proof (loo_quantities_unique N _ _ al ka al' ka' NS LQ LQ') as U.
  assert (sc = sc').
  { unfold exact_scale in SC, SC'. destruct (f_kind F); [congruence| |contradiction]. rewrite SC, SC'. unfold Rdiv. f_equal.
    assert (DU : dot N (fun a => at_ targets [a]) al = dot N (fun a => at_ targets [a]) al').
    { unfold dot. apply rsum_ext. intros a Ha. destruct (U a Ha) as [-> _]. reflexivity. }
    rewrite DU. apply rsum_ext. intros a Ha. destruct (U a Ha) as [-> ->]. reflexivity. }
  subst sc'. f_equal. cut (Some L = Some L'); [congruence|]. rewrite <- EL, <- EL'.
  apply batch_loss_ext; intros a Ha; [reflexivity| |]; destruct (U a Ha) as [UA UK]; rewrite ?UA, ?UK; reflexivity.
Qed.

Lemma nearest_others_others train N c n q : nearest_others train N c n q -> others_of N n c q.
Proof. intros (A & B & _). split; auto. Qed.
Lemma idx_perm idx N : List.length idx = N -> NoDup idx -> (forall i, (i < N)%nat -> (nth i idx O < N)%nat) -> perm_on N (fun i => nth i idx O).
Proof. intros L ND B. split; [exact B|]. intros a b Ha Hb E. apply (proj1 (NoDup_nth idx O) ND); lia. Qed.

Lemma candidate_sound s F names x0 bounds y s'' F'' train N n v0 :
  model_ok s F -> bounds_ok s F -> positive_bounds s F -> leading_free s (k_ls (m_kernel (f_attr F))) ->
  get_opt_params s (f_attr F) = Ok (names, x0, bounds) -> (f_kind F = FixedScale \/ ~ In "noise"%string names) ->
  trainable s F train N n -> S n = N -> (0 < n)%nat -> full_noise s F = HomoscedasticNoise v0 -> 0 <= v0 -> distinct_rows train N (fun i => i) ->
  in_box y bounds -> new_muygps s F names bounds (combine names (map Fin y)) = Ok (s'', F'') ->
  trainable s'' F'' train N n /\ uniform_noise (full_noise s'' F'') /\ full_sound (full_noise s'' F'') train N.
Proof.
  intros MO BO PB LF EO SK TR EN Hn HN Hv DR BOX E.
  assert (LEN : List.length y = List.length names).
  { rewrite (in_box_length _ _ BOX). apply (names_bounds_length s F names x0); auto. }
  destruct (objective_is_score gauss (fun _ _ => (0, 0)) 0 gamma kv s F names x0 bounds y MO BO (proj1 TR) LF EO LEN BOX SK) as (s2 & F2 & E2 & O & _).
  assert (EQ : Ok (s2, F2) = Ok (s'', F'')) by (rewrite <- E2; exact E). injection EQ as -> ->.
  destruct (candidate_trainable s F names x0 bounds y MO PB EO LEN BOX s'' F'' train N n E O TR) as (TR' & WP' & _).
  destruct (noise_stays_homo _ _ _ _ _ _ _ _ E HN) as (v1 & HN1).
  split; [exact TR'|]. split; [right; eauto|]. right. split; [|exact DR].
  assert (WP0 : loo_well_posed (full_noise s F) train N n (fun x => x) (fun x j => if (j <? x)%nat then j else S j)).
  { intros x Hx. right. split; [intros i Hi; rewrite HN; exact Hv|]. split.
    - intros i j Hi Hj NE. destruct (Nat.ltb_spec i x), (Nat.ltb_spec j x); apply DR; lia.
    - intros i Hi. destruct (Nat.ltb_spec i x); apply DR; lia. }
  destruct (WP' _ _ WP0 0%nat) as [P|(P & _)]; [lia| |]; specialize (P 0%nat Hn); rewrite HN1 in *; cbn in *; lra.
Qed.
End Exact.

Section Train.
Variable ls : lsolver.
Hypothesis EX : exact_solver ls.
Variable slogdet : nat -> mat -> R * R.
Variable eps : R.
Variables (gamma : R -> R) (kv : R -> R -> R).

Lemma exact_objective s F l kw draws train targets ix nn N n c q names x0 bounds t v0 :
  model_ok s F -> bounds_ok s F -> positive_bounds s F -> leading_free s (k_ls (m_kernel (f_attr F))) ->
  get_opt_params s (f_attr F) = Ok (names, x0, bounds) -> (f_kind F = FixedScale \/ ~ In "noise"%string names) ->
  trainable s F train N n -> full_noise s F = HomoscedasticNoise v0 -> 0 <= v0 -> distinct_rows train N (fun i => i) ->
  batch_ok train targets ix nn N N n c q -> loss_kw_ok kw -> scores_vectors l ->
  (n + 1 = N)%nat -> perm_on N c -> (forall x, (x < N)%nat -> others_of N n (c x) (q x)) ->
  full_train_tensors F ix nn train targets = Ok t ->
  forall x, in_box x bounds -> exists s' F' v,
    new_muygps s F names bounds (combine names (map Fin x)) = Ok (s', F') /\
    optimized_model s F (combine names (map Fin x)) s' F' /\
    obj_fn ls slogdet eps gamma kv s F l kw None draws (tr_pair t) (tr_cross t) (tr_nn_targets t) (tr_targets t) (combine names x) = Ok v /\
    exact_loo_value gamma kv s' F' l kw train targets N v.
Proof.
  intros MO BO PB LF EO SK TR HN Hv DR BK KW LS EN PM OT Et x BX. pose proof BK as (_ & _ & _ & Hn & _).
  assert (WP : loo_well_posed (full_noise s F) train N n c q).
  { intros z Hz. destruct (OT z Hz) as [B J]. assert (Hc : (c z < N)%nat) by (apply PM; auto).
    right. split; [intros i Hi; rewrite HN; exact Hv|]. split.
    - intros i j Hi Hj NE. apply DR; [apply B; auto|apply B; auto|]. intros E. apply NE, J; auto.
    - intros i Hi. destruct (B i Hi) as [R1 R2]. apply DR; auto. }
  destruct (candidate_value ls EX slogdet eps gamma kv s F l kw draws train targets ix nn N N n c q names x0 bounds t
    MO BO PB LF EO SK TR WP BK KW LS Et x BX) as (s' & F' & v & E & O & OV & LV & _).
  destruct (candidate_sound gamma kv s F names x0 bounds x s' F' train N n v0) as (TR' & UN & SN); auto; [lia|].
  exists s', F', v. split; [exact E|]. split; [exact O|]. split; [exact OV|].
  apply (exact_value gamma kv s' F' l kw train targets N n c q v); auto. lia.
Qed.

Variable knn : dict nnval -> list point -> point -> nat -> list (nat * R).
Variable hnsw : nnval -> list point -> point -> nat -> list (nat * R).
Variable dist : dict nnval -> point -> point -> R.
Hypothesis Hsk : sklearn_ok knn dist.

Lemma exact_regressor opt en method kw w train targets N n bc drawn s F l draws draws' names x0 bounds tried v0 :
  lower method = "exact"%string -> euclidean_kw kw -> nn_init en (rows_of train) n method kw = Ok w -> (n + 1 = N)%nat -> (N <= bc)%nat ->
  dataset train N -> shape targets = [N] -> distinct_rows train N (fun i => i) -> (0 < n)%nat ->
  model_ok s F -> bounds_ok s F -> positive_bounds s F -> leading_free s (k_ls (m_kernel (f_attr F))) ->
  get_opt_params s (f_attr F) = Ok (names, x0, bounds) -> (f_kind F = FixedScale \/ ~ In "noise"%string names) ->
  trainable s F train N n -> full_noise s F = HomoscedasticNoise v0 -> 0 <= v0 ->
  scores_vectors l -> model_fixed s (f_attr F) = Ok false -> returns_best opt s F names bounds tried ->
  exists x s' F' v sc f,
    in_box x bounds /\ new_muygps s F names bounds (combine names (map Fin x)) = Ok (s', F') /\
    optimized_model s F (combine names (map Fin x)) s' F' /\
    exact_loo_value gamma kv s' F' l [] train targets N v /\
    (forall y, in_box y bounds -> exists s'' F'' vy, new_muygps s F names bounds (combine names (map Fin y)) = Ok (s'', F'') /\
       exact_loo_value gamma kv s'' F'' l [] train targets N vy /\ f (combine names y) = Ok vy) /\
    (forall y, tried f y -> in_box y bounds -> exists vy, f (combine names y) = Ok vy /\ vy <= v) /\
    exact_scale_value gamma kv s' F' train targets N sc /\
    train_regressor ls slogdet eps gamma kv opt knn hnsw en train targets n bc method kw drawn s F l draws draws' =
      (if Rleb sc 0 then Err ValueError else Ok (s', with_scale F' sc, w)).
Proof.
  intros Hm He Hi EN Hbc D HT DR Hn MO BO PB LF EO SK TR HN Hv LS MF OPT.
  assert (EM : Nat.min bc N = N) by lia.
  destruct (train_regressor_ok ls EX slogdet eps gamma kv knn hnsw dist Hsk opt en method kw w train targets N n bc drawn s F l draws draws'
    names x0 bounds tried) as (idx & q & x & s' & F' & K & v & sc & LEN & ND & NO & BX & E & O & LV & (f & FV & FT) & EK & TR' & _ & SU & ER);
    auto; try lia; rewrite ?EM; auto.
  { intros y i _ _. rewrite HN. exact Hv. }
  rewrite EM in *.
  assert (PM : perm_on N (fun i => nth i idx 0%nat)) by (apply idx_perm; auto; intros i Hi0; apply NO; auto).
  assert (OT : forall i, (i < N)%nat -> others_of N n (nth i idx 0%nat) (q i)).
  { intros i Hi0. apply (nearest_others_others train). apply NO; auto. }
  assert (CS : forall y s'' F'', in_box y bounds -> new_muygps s F names bounds (combine names (map Fin y)) = Ok (s'', F'') ->
    trainable s'' F'' train N n /\ uniform_noise (full_noise s'' F'') /\ full_sound (full_noise s'' F'') train N).
  { intros y s'' F'' BY EY. apply (candidate_sound gamma kv s F names x0 bounds y s'' F'' train N n v0); auto. lia. }
  destruct (CS x s' F' BX E) as (_ & UN & SN).
  exists x, s', F', v, sc, f. split; [exact BX|]. split; [exact E|]. split; [exact O|].
  split; [apply (exact_value gamma kv s' F' l [] train targets N n (fun i => nth i idx 0%nat) q v); auto; lia|].
  split.
  { intros y BY. destruct (FV y BY) as (s'' & F'' & vy & EY & LY & EF). destruct (CS y s'' F'' BY EY) as (TR'' & UN'' & SN'').
    exists s'', F'', vy. split; [exact EY|]. split; [|exact EF].
    apply (exact_value gamma kv s'' F'' l [] train targets N n (fun i => nth i idx 0%nat) q vy); auto; lia. }
  split; [exact FT|]. split; [|exact ER].
  apply (exact_scale_val gamma kv s' F' K train targets N n (fun i => nth i idx 0%nat) q sc); auto; lia.
Qed.
End Train.
