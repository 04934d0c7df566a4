(** Proofs about the expected training objective of lensing models. *)
From Coq Require Import Lia Lra.
From Verif Require Import Base BaseFacts NdModel NdFacts RSum LinAlgModel LinAlgSpec LinAlgFacts GPModel NoiseModel NoiseProofs
  MuyGPSModel GPSpec TensorModel TensorSpec TensorProofs KernelSpec KernelLemmas
  HyperModel HyperSpec NamedModel NamedSpec KernelModel FlowSpec LossModel LossSpec
  ChassisModel ChassisSpec ObjectiveProofs WorkSpec WorkProofs TrainSpec CalibSpec ExactLooSpec
  ShearModel ShearSpec ShearFlowSpec ShearProofs ShearFlow ShearEdge ShearTrainModel ShearTrainSpec ShearTrainProofs ShearTrainProofs2
  BestSpec BestProofs FairProofs ShearBestSpec ShearBestProofs ShearBestProofs2 ShearFairSpec.
Local Open Scope R_scope.

Lemma expect_miss2 S pi n (w : nat -> R) (Y : nat -> nat -> R) f :
  expect S pi (fun t => (dot n w (fun p => Y p t) - f t) ^ 2) =
  expect S pi (fun t => f t * f t) - 2 * rsum n (fun p => w p * expect S pi (fun t => Y p t * f t))
  + rsum n (fun p => rsum n (fun q => w p * expect S pi (fun t => Y p t * Y q t) * w q)).
Proof.
  rewrite (expect_ext _ _ _ (fun t => (f t * f t - 2 * rsum n (fun p => w p * (Y p t * f t)))
     + rsum n (fun p => rsum n (fun q => w p * w q * (Y p t * Y q t))))).
  2:{ intros t _. set (D := dot n w (fun p => Y p t)).
    assert (E1 : rsum n (fun p => w p * (Y p t * f t)) = D * f t) by (unfold D, dot; rewrite <- rsum_scal_r; apply rsum_ext; intros; ring).
    assert (E2 : rsum n (fun p => rsum n (fun q => w p * w q * (Y p t * Y q t))) = D * D).
    { transitivity (rsum n (fun p => (w p * Y p t) * D)); [|unfold D at 2, dot; rewrite <- rsum_scal_r; reflexivity].
      apply rsum_ext. intros p _. unfold D, dot. rewrite <- rsum_scal. apply rsum_ext. intros; ring. }
    rewrite E1, E2. ring. }
  rewrite expect_plus, expect_minus, expect_scal, !expect_rsum. f_equal; [f_equal; f_equal|].
  - apply rsum_ext. intros p _. apply expect_scal.
  - apply rsum_ext. intros p _. rewrite expect_rsum. apply rsum_ext. intros q _. rewrite expect_scal. ring.
Qed.

Section Fair.
Variable ls : lsolver.
Hypothesis EX : exact_solver ls.
Variable slogdet : nat -> mat -> R * R.
Variable eps : R.
Variables (km : shear_model) (sn : bool) (s : store) (F : full) (names : list string) (x0 : list num) (bounds : list (num * num)).
Hypothesis MO : model_ok s F.
Hypothesis BO : bounds_ok s F.
Hypothesis PB : positive_bounds s F.
Hypothesis EO : get_opt_params s (f_attr F) = Ok (names, x0, bounds).
Hypothesis TR : shear_trainable km sn s F.
Variables (kw : dict R) (mask : option (list nat)) (outs : list nat) (draws : nat -> list nat)
  (train : nd R) (ix nn : nd Z) (n b k : nat) (c : nat -> nat) (q : nat -> nat -> nat).
Hypothesis SC : scored mask outs.
Hypothesis KW : loss_kw_ok kw.
Hypothesis OT : forall x, (x < b)%nat -> others_of n k (c x) (q x).
Variables (outcomes : nat) (pi : nat -> R) (T : nat -> nd R) (t : nat -> shear_train).
Hypothesis PR : probability outcomes pi.
Hypothesis BT : forall e, (e < outcomes)%nat -> shear_batch train (T e) ix nn n b k c q /\ shear_train_tensors km mask ix nn train (T e) = Ok (t e).
Definition obj (e : nat) (x : list R) : result R := shear_obj_fn ls slogdet eps km sn s F Mse kw mask draws (t e) (combine names x).
Notation N := (observed km * k)%nat.
Definition res (u : nat -> nat -> nat -> R) (e y i : nat) : R :=
  dot N (u y (nth i outs O)) (fun p => at_ (T e) [q y (p mod k)%nat; (unobserved km + p / k)%nat]) - at_ (T e) [c y; nth i outs O].

Lemma scored_pos : (0 < List.length outs)%nat /\ forall i, (i < List.length outs)%nat -> (nth i outs O < 3)%nat.
Proof.
  unfold scored in SC. destruct mask as [m|].
  - destruct SC as (-> & NE & H). split; [destruct m; [contradiction|cbn; lia]|]. intros i Hi. apply H, nth_In, Hi.
  - subst outs. split; [cbn; lia|]. intros i Hi. destruct i as [|[|[|i]]]; cbn in *; lia.
Qed.

Lemma candidate_weights x : in_box x bounds -> exists s' F' len v u,
  new_muygps s F names bounds (combine names (map Fin x)) = Ok (s', F') /\ shear_values s' F' len v /\ 0 < len /\ 0 < v /\ (sn = true -> km = Full33) /\
  (forall y o, (y < b)%nat -> (o < 3)%nat -> solves N (matA km sn len v train k (q y)) (u y o) (crs km len train k (q y) (feature train (c y)) o)) /\
  forall e, (e < outcomes)%nat -> obj e x =
    Ok (- (rsum b (fun y => rsum (List.length outs) (fun i => res u e y i ^ 2)) / (INR b * INR (List.length outs)))).
Proof.
  intros BX. pose proof (outcomes_pos outcomes pi PR) as P0. destruct (BT O P0) as [BK0 ET0].
  destruct (shear_candidate_value km sn s F names x0 bounds MO BO PB EO TR ls EX slogdet eps Mse kw mask outs draws train (T O) ix nn n b k c q BK0 SC KW
    (or_introl eq_refl) (t O) ET0 x BX) as (s' & F' & w & E & OM & _ & (len & v & mean & L & SV & Hl & Hv & _) & TR').
  assert (HR : forall y, (y < b)%nat -> selects n (at_ ix [y]) (c y)).
  { intros y Hy. destruct BK0 as (_ & _ & _ & _ & _ & _ & HC & _). destruct (HC y Hy) as [-> H]. split; auto. }
  assert (HQ : forall y i, (y < b)%nat -> (i < k)%nat -> selects n (at_ nn [y; i]) (q y i)).
  { intros y i Hy Hi. destruct BK0 as (_ & _ & _ & _ & _ & _ & _ & _ & HN). destruct (HN y i Hy Hi) as [-> H]. split; auto. }
  destruct (posterior_flat ls EX km sn s' F' len v train train ix nn n n b k c q TR' SV HR HQ) as [u Hu].
  destruct (Hu (T O) (batch_inputs _ _ _ _ _ _ _ _ _ BK0)) as (mean0 & var0 & _ & _ & _ & V). clear Hu.
  assert (SOL : forall y o, (y < b)%nat -> (o < 3)%nat -> solves N (matA km sn len v train k (q y)) (u y o) (crs km len train k (q y) (feature train (c y)) o)).
  { intros y o Hy Ho. apply V; auto. }
  pose proof TR as (_ & _ & SNF).
  exists s', F', len, v, u. split; [exact E|]. split; [exact SV|]. split; [exact Hl|]. split; [exact Hv|]. split; [exact SNF|]. split; [exact SOL|].
  intros e He. destruct (BT e He) as [BK ET].
  destruct (shear_candidate_value km sn s F names x0 bounds MO BO PB EO TR ls EX slogdet eps Mse kw mask outs draws train (T e) ix nn n b k c q BK SC KW
    (or_introl eq_refl) (t e) ET x BX) as (s1 & F1 & w1 & E1 & _ & O1 & (len1 & v1 & mean1 & L1 & SV1 & _ & _ & CK & SL & ->) & _).
  rewrite E in E1. injection E1 as <- <-.
  assert (len1 = len /\ v1 = v) as [-> ->].
  { destruct SV as (nl & nv & A1 & A2 & -> & ->), SV1 as (nl1 & nv1 & B1 & B2 & -> & ->). rewrite A1 in B1. rewrite A2 in B2. injection B1 as <-. injection B2 as <-. auto. }
  cbn [shear_loss] in SL. injection SL as <-. transitivity (@Ok R (- (rsum b (fun y => rsum (List.length outs) (fun i => (mean1 y (nth i outs O) - at_ (T e) [c y; nth i outs O]) ^ 2)) / (INR b * INR (List.length outs))))); [exact O1|].
  do 3 f_equal. apply rsum_ext. intros y Hy. apply rsum_ext. intros i Hi. f_equal.
  destruct (CK y (nth i outs O) Hy (proj2 scored_pos i Hi)) as (w0 & W & MV). unfold res. rewrite MV. f_equal.
  unfold dot. apply rsum_ext. intros p Hp. f_equal.
  apply (solves_unique _ _ _ _ _ (pd_nonsingular _ _ (matA_pd km sn len v train k (q y) Hl Hv)) W (SOL y (nth i outs O) Hy (proj2 scored_pos i Hi)) p Hp).
Qed.

Lemma residual_moment l v sc w y o : survey_drawn outcomes pi T sn l v sc train n -> 0 < l -> (sn = true -> km = Full33) -> (0 < k)%nat ->
  (y < b)%nat -> (c y < n)%nat -> (o < 3)%nat ->
  expect outcomes pi (fun e => (dot N w (fun p => at_ (T e) [q y (p mod k)%nat; (unobserved km + p / k)%nat]) - at_ (T e) [c y; o]) ^ 2) =
  sc * (flat_error km sn l v train k (q y) (feature train (c y)) o w + lens_noise sn v o).
Proof.
  intros [_ M] Hl SNF Hk Hy Hc Ho. destruct (OT y Hy) as [O1 O2].
  rewrite (expect_miss2 outcomes pi N w (fun p e => at_ (T e) [q y (p mod k)%nat; (unobserved km + p / k)%nat]) (fun e => at_ (T e) [c y; o])).
  rewrite M by auto. rewrite !Nat.eqb_refl. cbn [andb].
  rewrite (rsum_ext N (fun p => w p * expect outcomes pi (fun e => at_ (T e) [q y (p mod k)%nat; (unobserved km + p / k)%nat] * at_ (T e) [c y; o]))
    (fun p => sc * (w p * crs km l train k (q y) (feature train (c y)) o p))).
  2:{ intros p Hp. destruct (flat_range km k Hk p Hp) as [R1 R2]. destruct (O1 _ R2) as [R3 R4]. rewrite M by (auto; lia).
    assert ((q y (p mod k) =? c y)%nat = false) as -> by (apply Nat.eqb_neq; exact R4). cbn [andb]. unfold crs, stacked_cross, pts. ring. }
  rewrite (rsum_ext N (fun p => rsum N (fun q0 => w p * expect outcomes pi (fun e => at_ (T e) [q y (p mod k)%nat; (unobserved km + p / k)%nat] * at_ (T e) [q y (q0 mod k)%nat; (unobserved km + q0 / k)%nat]) * w q0))
    (fun p => sc * rsum N (fun q0 => w p * matA km sn l v train k (q y) p q0 * w q0))).
  2:{ intros p Hp. rewrite <- rsum_scal. apply rsum_ext. intros p' Hp'.
    destruct (flat_range km k Hk p Hp) as [R1 R2]. destruct (flat_range km k Hk p' Hp') as [R1' R2']. destruct (O1 _ R2) as [R3 _]. destruct (O1 _ R2') as [R3' _].
    rewrite M by (auto; lia). rewrite (matA_flat km sn l v train k (q y) Hk SNF p p' Hp Hp'). unfold lens_obs_cov.
    rewrite (Bool.andb_comm (unobserved km + p / k =? unobserved km + p' / k)%nat).
    assert ((q y (p mod k) =? q y (p' mod k))%nat = (p mod k =? p' mod k)%nat) as ->; [|ring].
    destruct (Nat.eqb_spec (p mod k) (p' mod k)) as [->|NE]; [apply Nat.eqb_refl|]. apply Nat.eqb_neq. intros EQ. apply NE. apply O2; auto. }
  rewrite !rsum_scal. unfold flat_error, prior, quad, dot. ring.
Qed.

Lemma shear_fair sc xs : 0 <= sc -> in_box xs bounds ->
  (exists s' F' l v, new_muygps s F names bounds (combine names (map Fin xs)) = Ok (s', F') /\ shear_values s' F' l v /\ survey_drawn outcomes pi T sn l v sc train n) ->
  forall x, in_box x bounds -> exists v vs,
    (forall e, (e < outcomes)%nat -> obj e x = Ok (v e) /\ obj e xs = Ok (vs e)) /\
    expect outcomes pi v <= expect outcomes pi vs /\ (0 < sc -> expect outcomes pi v = expect outcomes pi vs -> forall e, (e < outcomes)%nat -> v e = vs e).
Proof.
  intros S0 BXs (s1 & F1 & l & v & E1 & SV1 & DR) x BX.
  destruct (candidate_weights x BX) as (s2 & F2 & l2 & v2 & u & _ & _ & _ & _ & SNF & _ & HU).
  destruct (candidate_weights xs BXs) as (s3 & F3 & l3 & v3 & us & E3 & SV3 & Hl & Hv & _ & SOL & HS).
  rewrite E1 in E3. injection E3 as <- <-.
  assert (l3 = l /\ v3 = v) as [-> ->].
  { destruct SV1 as (nl & nv & A1 & A2 & -> & ->), SV3 as (nl1 & nv1 & B1 & B2 & -> & ->). rewrite A1 in B1. rewrite A2 in B2. injection B1 as <-. injection B2 as <-. auto. }
  pose proof (outcomes_pos outcomes pi PR) as P0. destruct (BT O P0) as [(_ & _ & Hb & Hk & _ & _ & HC & _) _].
  destruct scored_pos as [HR HO]. set (r := List.length outs) in *.
  set (cst := / (INR b * INR r)). assert (C0 : 0 < cst) by (apply Rinv_0_lt_compat, Rmult_lt_0_compat; apply lt_0_INR; lia).
  set (ms := fun w : nat -> nat -> nat -> R => fun e => rsum b (fun y => rsum r (fun i => res w e y i ^ 2))).
  exists (fun e => - (ms u e / (INR b * INR r))), (fun e => - (ms us e / (INR b * INR r))).
  split; [intros e He; split; [apply HU|apply HS]; exact He|].
  set (er := fun (w : nat -> nat -> nat -> R) y i => flat_error km sn l v train k (q y) (feature train (c y)) (nth i outs O) (w y (nth i outs O))).
  assert (EE : forall w : nat -> nat -> nat -> R, expect outcomes pi (fun e => - (ms w e / (INR b * INR r))) =
     - (cst * sc) * rsum b (fun y => rsum r (fun i => er w y i + lens_noise sn v (nth i outs O)))).
  { intros w. rewrite (expect_ext _ _ _ (fun e => - cst * ms w e)) by (intros; unfold cst, Rdiv; ring). rewrite expect_scal. unfold ms.
    rewrite expect_rsum. rewrite (rsum_ext b _ (fun y => sc * rsum r (fun i => er w y i + lens_noise sn v (nth i outs O)))); [rewrite rsum_scal; ring|].
    intros y Hy. rewrite expect_rsum, <- rsum_scal. apply rsum_ext. intros i Hi. unfold er, res. apply residual_moment; auto; [lia|apply HC; exact Hy]. }
  assert (OP : forall y i, (y < b)%nat -> (i < r)%nat -> er us y i <= er u y i /\ (er u y i = er us y i -> forall p, (p < N)%nat -> u y (nth i outs O) p = us y (nth i outs O) p)).
  { intros y i Hy Hi. unfold er. apply (flat_optimal km sn l v train k (q y) (feature train (c y)) Hl Hv). apply SOL; auto. }
  assert (LE : forall y, (y < b)%nat -> rsum r (fun i => er us y i + lens_noise sn v (nth i outs O)) <= rsum r (fun i => er u y i + lens_noise sn v (nth i outs O))).
  { intros y Hy. apply rsum_le. intros i Hi. destruct (OP y i Hy Hi). lra. }
  rewrite !EE. split.
  - pose proof (rsum_le b _ _ LE) as L2. assert (0 <= cst * sc) by (apply Rmult_le_pos; lra). nra.
  - intros SP EQ e He. do 2 f_equal. unfold ms.
    assert (EB : rsum b (fun y => rsum r (fun i => er u y i + lens_noise sn v (nth i outs O))) = rsum b (fun y => rsum r (fun i => er us y i + lens_noise sn v (nth i outs O)))).
    { apply (Rmult_eq_reg_l (- (cst * sc))); [exact EQ|]. assert (0 < cst * sc) by (apply Rmult_lt_0_compat; auto). lra. }
    apply rsum_ext. intros y Hy. pose proof (rsum_le_eq b _ _ LE EB y Hy) as EY. cbv beta in EY.
    apply rsum_ext. intros i Hi. f_equal. unfold res. f_equal.
    assert (EI : er us y i + lens_noise sn v (nth i outs O) = er u y i + lens_noise sn v (nth i outs O)).
    { apply (rsum_le_eq r (fun i => er us y i + lens_noise sn v (nth i outs O)) (fun i => er u y i + lens_noise sn v (nth i outs O))); auto.
      intros j Hj. destruct (OP y j Hy Hj). lra. }
    unfold dot. apply rsum_ext. intros p Hp. f_equal. apply (proj2 (OP y i Hy Hi)); [lra|exact Hp].
Qed.
End Fair.

(** Such surveys exist. *)
Lemma survey_exists sn l v sc train n : (0 < n)%nat -> 0 < l -> 0 < v -> 0 <= sc ->
  exists outcomes pi T, survey_drawn outcomes pi T sn l v sc train n /\ forall e, shape (T e) = [n; 3]%nat.
Proof.
  intros Hn Hl Hv SC. destruct (lens_moments_exist Full33 sn l v sc train n (fun i => i) (fun _ => 0) Hn Hl Hv (fun _ => eq_refl) SC) as (S & pi & f & y & [M0 _ _ M3]).
  exists S, pi, (fun e => mkNd [n; 3]%nat (fun idx => match idx with [i; a] => y a i e | _ => 0 end)). split; [|reflexivity].
  split; [exact M0|]. intros i a i' a' Hi Ha Hi' Ha'. cbn [at_]. rewrite M3 by (cbn; auto; lia). unfold lens_obs_cov.
  rewrite (Bool.andb_comm (a =? a')%nat). reflexivity.
Qed.
