(** Lemmas for C112. *)
From Coq Require Import Lia Lra.
From Verif Require Import Base BaseFacts NdModel NdFacts RSum HyperModel NamedModel NamedSpec LinAlgModel LinAlgSpec LinAlgFacts Gauss
  GPModel NoiseModel MuyGPSModel GPSpec GPTheorems WellPosedProofs ScaleSpec TensorModel TensorSpec KernelModel KernelSpec KernelCases
  FlowModel FlowSpec FlowProofs PointwiseSpec LibSpec LibProofs LossModel LossSpec ChassisModel ChassisSpec
  WorkModel WorkSpec WorkProofs WorkLemmas BestSpec BestProofs BestGram CalibSpec CalibProofs TrainModel TrainSpec TrainProofs TrainProofs2
  TrainProofs3 ObjectiveProofs ExactLooSpec ExactLooProofs FairSpec.
Local Open Scope R_scope.

Lemma ln_le_sub v : 0 < v -> ln v <= v - 1.
Proof. intros P. pose proof (exp_ineq1_le (ln v)) as H. rewrite exp_ln in H by auto. lra. Qed.
Lemma ln_eq_sub v : 0 < v -> ln v = v - 1 -> v = 1.
Proof.
  intros P E. destruct (Req_dec (ln v) 0) as [Z|NZ]; [rewrite Z in E; lra|].
  pose proof (exp_ineq1 (ln v) NZ) as H. rewrite exp_ln in H by auto. lra.
Qed.

(** The expected log likelihood term: at least that of the true variance [t]. *)
Lemma lik_best sc a t v : 0 < sc -> 0 < t -> 0 < v -> t <= a -> sc * t / (sc * t) + ln (sc * t) <= sc * a / (sc * v) + ln (sc * v) /\
  (sc * a / (sc * v) + ln (sc * v) = sc * t / (sc * t) + ln (sc * t) -> v = t /\ a = t).
Proof.
  intros S T V A.
  replace (sc * t / (sc * t)) with 1 by (field; lra). replace (sc * a / (sc * v)) with (a / v) by (field; lra).
  rewrite !ln_mult by auto.
  assert (R0 : 0 < t / v) by (apply Rdiv_lt_0_compat; auto).
  assert (L : ln (t / v) = ln t - ln v). { unfold Rdiv. rewrite ln_mult, ln_Rinv by (auto; apply Rinv_0_lt_compat; auto). ring. }
  pose proof (ln_le_sub (t / v) R0) as H.
  assert (AV : t / v <= a / v). { unfold Rdiv. apply Rmult_le_compat_r; [left; apply Rinv_0_lt_compat; auto|auto]. }
  split; [lra|]. intros E. assert (E1 : ln (t / v) = t / v - 1) by lra. apply ln_eq_sub in E1; [|auto].
  assert (t = v). { apply (Rmult_eq_reg_r (/ v)); [|apply Rinv_neq_0_compat; lra]. rewrite Rinv_r by lra. exact E1. }
  split; [auto|]. assert (a / v = t / v) by lra. apply (Rmult_eq_reg_r (/ v)); [auto|apply Rinv_neq_0_compat; lra].
Qed.

Lemma rsum_le_eq n f g : (forall i, (i < n)%nat -> f i <= g i) -> rsum n g = rsum n f -> forall i, (i < n)%nat -> f i = g i.
Proof.
  intros L E i Hi. assert (H : g i - f i = 0); [|lra].
  apply (rsum_zero_inv n (fun i => g i - f i)); auto; [intros j Hj; specialize (L j Hj); lra|]. rewrite rsum_minus. lra.
Qed.

(** With noise [nu], one neighbour and correlation [rs], a somewhat smaller correlation [r] has a better expected likelihood. *)
Lemma noise_algebra sc nu r rs v vs : 0 < sc -> 0 < nu -> 0 <= r -> r < rs -> rs <= 1 ->
  v = 1 - r ^ 2 / (1 + nu) -> vs = 1 - rs ^ 2 / (1 + nu) -> 0 < v -> 0 < vs ->
  3 * (rs - r) < nu * rs \/ 1 <= nu /\ 0 < r ->
  sc * (1 - 2 * (r / (1 + nu)) * rs + (r / (1 + nu)) ^ 2 * (1 + nu) + nu) / (sc * v) + ln (sc * v) <
  sc * (1 - 2 * (rs / (1 + nu)) * rs + (rs / (1 + nu)) ^ 2 * (1 + nu) + nu) / (sc * vs) + ln (sc * vs).
Proof.
  intros SC NU R0 RL R1 EV EVs VP VPs CO. set (a := / (1 + nu)).
  assert (AP : 0 < a) by (apply Rinv_0_lt_compat; lra). assert (A1 : a * (1 + nu) = 1) by (apply Rinv_l; lra).
  unfold Rdiv in EV, EVs. fold a in EV, EVs.
  assert (M1 : sc * (1 - 2 * (r / (1 + nu)) * rs + (r / (1 + nu)) ^ 2 * (1 + nu) + nu) / (sc * v) = (v + nu - 2 * a * r * (rs - r)) / v).
  { rewrite EV at 2. unfold a. field. split; lra. }
  assert (M2 : sc * (1 - 2 * (rs / (1 + nu)) * rs + (rs / (1 + nu)) ^ 2 * (1 + nu) + nu) / (sc * vs) = (vs + nu) / vs).
  { rewrite EVs at 2. unfold a. field. split; lra. }
  rewrite M1, M2, !ln_mult by auto.
  assert (L : ln v - ln vs <= v / vs - 1).
  { replace (ln v - ln vs) with (ln (v / vs)); [apply ln_le_sub, Rdiv_lt_0_compat; auto|].
    unfold Rdiv. rewrite ln_mult, ln_Rinv by (auto; apply Rinv_0_lt_compat; auto). ring. }
  assert (D : v - vs = a * (rs - r) * (rs + r)) by (rewrite EV, EVs; ring).
  assert (POS : 0 < (rs + r) * (nu - v) + 2 * r * vs).
  { replace vs with (v - a * (rs - r) * (rs + r)) by lra.
    assert (P : (rs - r) * (1 + a * r ^ 2 + 2 * a * r * rs) < (rs + r) * nu).
    { assert (AL : a < 1) by nra.
      assert (Q0 : 0 <= a * r ^ 2 + 2 * a * r * rs) by (apply Rplus_le_le_0_compat; repeat apply Rmult_le_pos; try lra; apply pow2_ge_0).
      destruct CO as [CO|[CO RP]].
      - assert (Q : a * r ^ 2 + 2 * a * r * rs <= 3 * r).
        { assert (r ^ 2 + 2 * r * rs <= 3 * r) by nra. assert (0 <= r ^ 2 + 2 * r * rs) by nra. nra. }
        assert (Q2 : 3 * (rs - r) * (1 + 3 * r) < 3 * ((rs + r) * nu)); [|nra].
        assert (nu * rs * (1 + 3 * r) <= 3 * ((rs + r) * nu)). { assert (rs * (1 + 3 * r) <= 3 * (rs + r)) by nra. nra. }
        assert (3 * (rs - r) * (1 + 3 * r) < nu * rs * (1 + 3 * r)) by nra. lra.
      - assert (AH : a <= 1 / 2) by nra.
        assert (Q : a * r ^ 2 + 2 * a * r * rs <= 3 / 2 * r).
        { assert (r ^ 2 + 2 * r * rs <= 3 * r) by nra. assert (0 <= r ^ 2 + 2 * r * rs) by nra. nra. }
        assert ((rs - r) * (1 + a * r ^ 2 + 2 * a * r * rs) <= (rs - r) * (1 + 3 / 2 * r)) by nra.
        assert ((rs - r) * (1 + 3 / 2 * r) < rs + r) by nra.
        assert (rs + r <= (rs + r) * nu) by nra. lra. }
    rewrite EV in *. nra. }
  assert (K : 0 < (vs + nu) / vs - (v + nu - 2 * a * r * (rs - r)) / v - (v / vs - 1)); [|lra].
  replace ((vs + nu) / vs - (v + nu - 2 * a * r * (rs - r)) / v - (v / vs - 1))
    with (((v - vs) * (nu - v) + 2 * a * r * (rs - r) * vs) / (v * vs)) by (field; lra).
  apply Rdiv_lt_0_compat; [|apply Rmult_lt_0_compat; auto]. rewrite D.
  replace (a * (rs - r) * (rs + r) * (nu - v) + 2 * a * r * (rs - r) * vs) with (a * (rs - r) * ((rs + r) * (nu - v) + 2 * r * vs)) by ring.
  apply Rmult_lt_0_compat; [apply Rmult_lt_0_compat; lra|exact POS].
Qed.

Section Fair.
Variables (gamma : R -> R) (kv : R -> R -> R).

(** The expected squared residual of a linear predictor of a left-out observation. *)
Lemma residual S pi T k m sc train N n c q w : uniform_noise m -> drawn_from S pi T k m sc train N -> (c < N)%nat -> others_of N n c q ->
  expect S pi (fun o => (rsum n (fun j => w j * at_ (T o) [q j]) - at_ (T o) [c]) ^ 2) =
  sc * (error_variance k m train train c n q w + noise_at m None 0 0).
Proof.
  intros U [PR MO] Hc [OB OI]. unfold error_variance.
  assert (E : forall o, (rsum n (fun j => w j * at_ (T o) [q j]) - at_ (T o) [c]) ^ 2 =
     at_ (T o) [c] * at_ (T o) [c] + ((-2) * rsum n (fun j => w j * (at_ (T o) [c] * at_ (T o) [q j])) +
     rsum n (fun i => rsum n (fun j => (w i * w j) * (at_ (T o) [q i] * at_ (T o) [q j]))))).
  { intros o. set (t := rsum n (fun j => w j * at_ (T o) [q j])).
    assert (E1 : rsum n (fun j => w j * (at_ (T o) [c] * at_ (T o) [q j])) = at_ (T o) [c] * t).
    { unfold t. rewrite <- rsum_scal. apply rsum_ext. intros; ring. }
    assert (E2 : rsum n (fun i => rsum n (fun j => w i * w j * (at_ (T o) [q i] * at_ (T o) [q j]))) = t * t).
    { unfold t at 1. rewrite <- rsum_scal_r. apply rsum_ext. intros i Hi. unfold t. rewrite <- rsum_scal. apply rsum_ext. intros; ring. }
    rewrite E1, E2. ring. }
  rewrite (expect_ext S pi _ _ (fun o _ => E o)). rewrite expect_plus, expect_plus, MO, Nat.eqb_refl, expect_scal, expect_rsum by auto.
  rewrite (rsum_ext n _ (fun j => sc * (w j * kcov k train train c (q j)))).
  2:{ intros j Hj. destruct (OB j Hj) as [B NE]. rewrite expect_scal, MO by auto. destruct (Nat.eqb_spec c (q j)); [exfalso; auto|]. ring. }
  rewrite rsum_scal. rewrite expect_rsum.
  rewrite (rsum_ext n (fun j => expect S pi _) (fun i => sc * rsum n (fun j => w i * w j * obs_cov k m train c q i j))).
  2:{ intros i Hi. rewrite expect_rsum, <- rsum_scal. apply rsum_ext. intros j Hj.
      rewrite expect_scal, MO by (apply OB; auto). unfold obs_cov.
      destruct (Nat.eqb_spec i j) as [->|NE].
      - rewrite Nat.eqb_refl, (uniform_noise_const m c j 0 0 U). ring.
      - destruct (Nat.eqb_spec (q i) (q j)) as [EQ|_]; [exfalso; auto|]. ring. }
  rewrite rsum_scal. ring.
Qed.

(** A candidate's leave-one-out means are fixed linear combinations of the targets; its variances do not depend on the targets. *)
Lemma loo_linear s F train b n c q : trainable s F train b n -> loo_well_posed (full_noise s F) train b n c q ->
  exists K u V, full_lib s F = Some K /\ lk_ok K (feature_count train) (reals s) [] /\
    let k := lk_cov gamma kv K (feature_count train) (reals s) [] in
    (forall x, (x < b)%nat -> solves n (nbr_matrix k (full_noise s F) train q x) (u x) (fun j => kcov k train train (c x) (q x j)) /\
       V x = 1 - dot n (u x) (fun j => kcov k train train (c x) (q x j))) /\
    forall targets l kw v, loo_value gamma kv s F l kw train targets b n c q v ->
      (forall x, (x < b)%nat -> 0 < V x <= 1) /\
      exists scale L, scale_used F k (full_noise s F) train targets b n q scale /\
        batch_loss l kw b (fun x => at_ targets [c x]) (fun x => rsum n (fun j => u x j * at_ targets [q x j])) V scale = Some L /\ v = - L.
Proof.
  intros (_ & (K & EK & OK) & _ & _) WP. set (k := lk_cov gamma kv K (feature_count train) (reals s) []).
  assert (W : well_posed (full_noise s F) train b n q).
  { intros x Hx. destruct (WP x Hx) as [P|(P & D & _)]; [left|right]; auto. }
  assert (NS : forall x, (x < b)%nat -> nonsingular n (nbr_matrix k (full_noise s F) train q x)).
  { intros x Hx. apply pd_nonsingular. apply (nbr_pd gamma kv K (reals s) [] _ train b n q x OK W Hx). }
  destruct (choose_weights b (fun x u => solves n (nbr_matrix k (full_noise s F) train q x) u (fun j => kcov k train train (c x) (q x j)))) as [u HU].
  { intros x Hx. destruct (proj1 (proj2 gauss_exact n 1%nat (nbr_matrix k (full_noise s F) train q x) (fun j _ => kcov k train train (c x) (q x j))) (NS x Hx)) as [X EX].
    exists (fun i => X i O). exact (proj1 gauss_exact n 1%nat _ _ X EX O ltac:(lia)). }
  exists K, u, (fun x => 1 - dot n (u x) (fun j => kcov k train train (c x) (q x j))).
  split; [exact EK|]. split; [exact OK|]. cbv zeta. fold k. split; [intros x Hx; split; [apply HU; auto|reflexivity]|].
  intros targets l kw v (K' & mean & var & scale & L & EK' & LP & VP & SU & BL & EV).
  rewrite EK in EK'. injection EK' as <-. fold k in LP, SU.
  assert (EM : forall x, (x < b)%nat -> mean x = rsum n (fun j => u x j * at_ targets [q x j]) /\
      var x = 1 - dot n (u x) (fun j => kcov k train train (c x) (q x j))).
  { intros x Hx. destruct (LP x Hx) as ((w & SW & ->) & w' & SW' & ->). split.
    - unfold dot. apply rsum_ext. intros j Hj. rewrite (solves_unique n _ w (u x) _ (NS x Hx) SW (HU x Hx) j Hj). reflexivity.
    - f_equal. unfold dot. apply rsum_ext. intros j Hj. rewrite (solves_unique n _ w' (u x) _ (NS x Hx) SW' (HU x Hx) j Hj). reflexivity. }
  split; [intros x Hx; rewrite <- (proj2 (EM x Hx)); auto|].
  exists scale, L. split; [exact SU|]. split; [|exact EV]. rewrite <- BL. apply batch_loss_ext; auto; intros x Hx; symmetry; apply EM; auto.
Qed.

(** The weights of the true model have the least error among all weights. *)
Lemma truth_optimal K cur m train b n c q x u : lk_ok K (feature_count train) cur [] -> uniform_noise m ->
  loo_well_posed m train b n c q -> (x < b)%nat ->
  let k := lk_cov gamma kv K (feature_count train) cur [] in
  solves n (nbr_matrix k m train q x) u (fun j => kcov k train train (c x) (q x j)) ->
  error_variance k m train train (c x) n (q x) u = 1 - dot n u (fun j => kcov k train train (c x) (q x j)) /\
  forall w, error_variance k m train train (c x) n (q x) u <= error_variance k m train train (c x) n (q x) w /\
    (error_variance k m train train (c x) n (q x) w = error_variance k m train train (c x) n (q x) u -> forall j, (j < n)%nat -> w j = u j).
Proof.
  intros OK U WP Hx k SO.
  apply (error_optimal gamma kv K cur [] m train train (S (c x)) (c x) n (fun _ => q x) u); auto.
  - intros y Hy. destruct (WP x Hx) as [P|(P & D & _)]; [left|right; split; [|exact D]]; intros i Hi; rewrite (uniform_noise_const m y i x i U); auto.
  - intros i Hi. eapply eq_trans; [|exact (SO i Hi)]. apply rsum_ext. intros j Hj. f_equal. unfold nbr_matrix, plus_diag.
    rewrite (uniform_noise_const m (c x) i x i U). reflexivity.
Qed.
End Fair.

Lemma outcomes_pos S pi : probability S pi -> (0 < S)%nat.
Proof. intros [H _]. destruct S as [|S']; [|lia]. cbn in H. lra. Qed.

Section Training.
Variables (ls : lsolver).
Hypothesis EX : exact_solver ls.
Variables (slogdet : nat -> mat -> R * R) (eps : R) (gamma : R -> R) (kv : R -> R -> R).
Variables (s : store) (F : full) (names : list string) (x0 : list num) (bounds : list (num * num)) (train : nd R)
  (N b n : nat) (c : nat -> nat) (q : nat -> nat -> nat).
Hypothesis TN : training s F names x0 bounds train N b n c q.
Variables (S : nat) (pi : nat -> R) (T : nat -> nd R) (ix nn : nd Z) (t : nat -> train_tensors) (l : loss) (kw : dict R) (draws : nat -> list nat).
Hypothesis LS : scores_vectors l.
Hypothesis KW : loss_kw_ok kw.
Hypothesis BK : forall o, (o < S)%nat -> batch_ok train (T o) ix nn N b n c q /\ full_train_tensors F ix nn train (T o) = Ok (t o).
Hypothesis PR : probability S pi.

Let obj o x := obj_fn ls slogdet eps gamma kv s F l kw None draws (tr_pair (t o)) (tr_cross (t o)) (tr_nn_targets (t o)) (tr_targets (t o)) (combine names x).

Lemma candidate x : in_box x bounds -> exists s' F' K u V,
  new_muygps s F names bounds (combine names (map Fin x)) = Ok (s', F') /\ optimized_model s F (combine names (map Fin x)) s' F' /\
  trainable s' F' train b n /\ loo_well_posed (full_noise s' F') train b n c q /\
  full_lib s' F' = Some K /\ lk_ok K (feature_count train) (reals s') [] /\
  let k := lk_cov gamma kv K (feature_count train) (reals s') [] in
  (forall x, (x < b)%nat -> solves n (nbr_matrix k (full_noise s' F') train q x) (u x) (fun j => kcov k train train (c x) (q x j)) /\
     V x = 1 - dot n (u x) (fun j => kcov k train train (c x) (q x j)) /\ 0 < V x <= 1) /\
  forall o, (o < S)%nat -> exists scale L, scale_used F' k (full_noise s' F') train (T o) b n q scale /\
    batch_loss l kw b (fun x => at_ (T o) [c x]) (fun x => rsum n (fun j => u x j * at_ (T o) [q x j])) V scale = Some L /\ obj o x = Ok (- L).
Proof.
  intros BOX. destruct TN.
  assert (CV : forall o, (o < S)%nat -> exists s' F' v,
    new_muygps s F names bounds (combine names (map Fin x)) = Ok (s', F') /\ optimized_model s F (combine names (map Fin x)) s' F' /\
    obj o x = Ok v /\ loo_value gamma kv s' F' l kw train (T o) b n c q v /\
    trainable s' F' train b n /\ loo_well_posed (full_noise s' F') train b n c q).
  { intros o Ho. destruct (BK o Ho). apply (candidate_value ls EX slogdet eps gamma kv s F l kw draws train (T o) ix nn N b n c q names x0 bounds (t o)); auto. }
  destruct (CV O (outcomes_pos S pi PR)) as (s' & F' & v0 & E & OM & _ & LV0 & TR & WP).
  destruct (loo_linear gamma kv s' F' train b n c q TR WP) as (K & u & V & EK & OK & HU & HL).
  exists s', F', K, u, V. split; [exact E|]. split; [exact OM|]. split; [exact TR|]. split; [exact WP|]. split; [exact EK|]. split; [exact OK|].
  cbv zeta. split.
  { intros y Hy. destruct (HU y Hy) as [A B]. split; [exact A|]. split; [exact B|]. apply (proj1 (HL _ _ _ _ LV0)); auto. }
  intros o Ho. destruct (CV o Ho) as (s2 & F2 & v & E2 & _ & EO & LV & _).
  rewrite E in E2. injection E2 as <- <-. destruct (HL _ _ _ _ LV) as (_ & scale & L & SU & BL & EV).
  exists scale, L. split; [exact SU|]. split; [exact BL|]. rewrite EO, EV. reflexivity.
Qed.

Variables (sc : R) (xs : list R).
Hypothesis DA : drawn_at gamma kv s F names bounds train N S pi T sc xs.

Lemma batch_row x : (x < b)%nat -> (c x < N)%nat.
Proof. intros Hx. destruct (BK O (outcomes_pos S pi PR)) as [(_ & _ & _ & _ & _ & HC & _) _]. apply HC; auto. Qed.

(** Both the truth and a candidate, with the expected squared residuals of the candidate. *)
Lemma against_truth x : in_box x bounds -> exists u V us Vs e es nu,
  (forall y, (y < b)%nat -> 0 < V y <= 1 /\ 0 < Vs y <= 1 /\ es y = Vs y + nu /\ es y <= e y /\ (e y = es y -> forall j, (j < n)%nat -> u y j = us y j) /\
    expect S pi (fun o => (rsum n (fun j => u y j * at_ (T o) [q y j]) - at_ (T o) [c y]) ^ 2) = sc * e y /\
    expect S pi (fun o => (rsum n (fun j => us y j * at_ (T o) [q y j]) - at_ (T o) [c y]) ^ 2) = sc * es y) /\
  (exists s' F', new_muygps s F names bounds (combine names (map Fin xs)) = Ok (s', F') /\ nu = noise_at (full_noise s' F') None 0 0) /\
  (forall o, (o < S)%nat -> exists scale L, (f_kind F = FixedScale -> scale = f_scale F) /\
    batch_loss l kw b (fun x => at_ (T o) [c x]) (fun x => rsum n (fun j => u x j * at_ (T o) [q x j])) V scale = Some L /\ obj o x = Ok (- L)) /\
  (forall o, (o < S)%nat -> exists scale L, (f_kind F = FixedScale -> scale = f_scale F) /\
    batch_loss l kw b (fun x => at_ (T o) [c x]) (fun x => rsum n (fun j => us x j * at_ (T o) [q x j])) Vs scale = Some L /\ obj o xs = Ok (- L)).
Proof.
  intros BOX. destruct DA as (BOXs & s1 & F1 & K1 & E1 & L1 & U1 & DF).
  destruct (candidate x BOX) as (s' & F' & K & u & V & E & OM & TR & WP & EK & OK & HU & HO).
  destruct (candidate xs BOXs) as (s2 & F2 & K2 & us & Vs & E2 & OM2 & TR2 & WP2 & EK2 & OK2 & HU2 & HO2).
  rewrite E1 in E2. injection E2 as <- <-. rewrite L1 in EK2. injection EK2 as <-.
  set (k := lk_cov gamma kv K1 (feature_count train) (reals s1) []) in *. set (m := full_noise s1 F1) in *.
  exists u, V, us, Vs, (fun y => error_variance k m train train (c y) n (q y) (u y) + noise_at m None 0 0),
    (fun y => error_variance k m train train (c y) n (q y) (us y) + noise_at m None 0 0), (noise_at m None 0 0).
  split.
  { intros y Hy. destruct (HU y Hy) as (_ & _ & VP). destruct (HU2 y Hy) as (SO & EV & VP2).
    destruct (truth_optimal gamma kv K1 (reals s1) m train b n c q y (us y) OK2 U1 WP2 Hy SO) as [EE OP]. fold k in EE, OP.
    split; [exact VP|]. split; [exact VP2|]. split; [rewrite EE, EV; reflexivity|].
    destruct (OP (u y)) as [OP1 OP2]. split; [lra|]. split; [intros E3; apply OP2; lra|].
    split; apply (residual S pi T k m sc train N n (c y) (q y)); auto using batch_row; apply (tn_others _ _ _ _ _ _ _ _ _ _ _ TN); auto. }
  split; [exists s1, F1; auto|].
  assert (FX : forall s3 F3 k3 m3 o scale x3, optimized_model s F x3 s3 F3 -> scale_used F3 k3 m3 train (T o) b n q scale -> f_kind F = FixedScale -> scale = f_scale F).
  { intros s3 F3 k3 m3 o scale x3 (_ & _ & _ & _ & _ & FK & FS) SU EF. unfold scale_used in SU. rewrite FK, EF in SU. congruence. }
  split; intros o Ho.
  - destruct (HO o Ho) as (scale & L & SU & BL & EO). exists scale, L. split; [apply (FX _ _ _ _ _ _ _ OM SU)|auto].
  - destruct (HO2 o Ho) as (scale & L & SU & BL & EO). exists scale, L. split; [apply (FX _ _ _ _ _ _ _ OM2 SU)|auto].
Qed.
End Training.

Section Best.
Variables (ls : lsolver).
Hypothesis EX : exact_solver ls.
Variables (slogdet : nat -> mat -> R * R) (eps : R) (gamma : R -> R) (kv : R -> R -> R).
Variables (s : store) (F : full) (names : list string) (x0 : list num) (bounds : list (num * num)) (train : nd R)
  (N b n : nat) (c : nat -> nat) (q : nat -> nat -> nat).
Hypothesis TN : training s F names x0 bounds train N b n c q.
Variables (S : nat) (pi : nat -> R) (T : nat -> nd R) (ix nn : nd Z) (t : nat -> train_tensors) (kw : dict R) (draws : nat -> list nat).
Hypothesis KW : loss_kw_ok kw.
Hypothesis BK : forall o, (o < S)%nat -> batch_ok train (T o) ix nn N b n c q /\ full_train_tensors F ix nn train (T o) = Ok (t o).
Hypothesis PR : probability S pi.
Variables (sc : R) (xs : list R).
Hypothesis DA : drawn_at gamma kv s F names bounds train N S pi T sc xs.
Let obj l o x := obj_fn ls slogdet eps gamma kv s F l kw None draws (tr_pair (t o)) (tr_cross (t o)) (tr_nn_targets (t o)) (tr_targets (t o)) (combine names x).

Lemma batch_pos : (0 < b)%nat.
Proof. destruct (BK O (outcomes_pos S pi PR)) as [(_ & _ & H & _) _]. exact H. Qed.

Lemma mse_best x : 0 <= sc -> in_box x bounds -> exists v vs,
  (forall o, (o < S)%nat -> obj Mse o x = Ok (v o) /\ obj Mse o xs = Ok (vs o)) /\
  expect S pi v <= expect S pi vs /\ (0 < sc -> expect S pi v = expect S pi vs -> forall o, (o < S)%nat -> v o = vs o).
Proof.
  intros SC BOX.
  destruct (against_truth ls EX slogdet eps gamma kv s F names x0 bounds train N b n c q TN S pi T ix nn t Mse kw draws
     ltac:(split; discriminate) KW BK PR sc xs DA x BOX) as (u & V & us & Vs & e & es & nu & HY & _ & HO & HOs).
  set (ms := fun (w : nat -> nat -> R) o => rsum b (fun y => (rsum n (fun j => w y j * at_ (T o) [q y j]) - at_ (T o) [c y]) ^ 2) / INR b).
  exists (fun o => - ms u o), (fun o => - ms us o).
  assert (NB : 0 < / INR b) by (apply Rinv_0_lt_compat, lt_0_INR, batch_pos).
  split.
  { intros o Ho. destruct (HO o Ho) as (scale & L & _ & BL & EO). destruct (HOs o Ho) as (scale' & L' & _ & BL' & EO').
    cbn [batch_loss] in BL, BL'. split; [transitivity (@Ok R (- L)); [exact EO|]|transitivity (@Ok R (- L')); [exact EO'|]]; unfold ms; f_equal; congruence. }
  assert (EE : forall (w : nat -> nat -> R) (g : nat -> R), (forall y, (y < b)%nat -> expect S pi (fun o => (rsum n (fun j => w y j * at_ (T o) [q y j]) - at_ (T o) [c y]) ^ 2) = sc * g y) ->
     expect S pi (fun o => - ms w o) = - / INR b * (sc * rsum b g)).
  { intros w g H. rewrite (expect_ext S pi _ (fun o => - / INR b * rsum b (fun y => (rsum n (fun j => w y j * at_ (T o) [q y j]) - at_ (T o) [c y]) ^ 2))).
    2:{ intros o Ho. unfold ms. field. apply not_0_INR. pose proof batch_pos. lia. }
    rewrite expect_scal, expect_rsum, (rsum_ext b _ (fun y => sc * g y)) by exact H. rewrite rsum_scal. reflexivity. }
  rewrite (EE u e), (EE us es) by (intros y Hy; apply HY; auto).
  assert (LE : forall y, (y < b)%nat -> es y <= e y) by (intros y Hy; apply HY; auto).
  assert (LS : rsum b es <= rsum b e) by (apply rsum_le; auto).
  split.
  { assert (H : sc * rsum b es <= sc * rsum b e) by (apply Rmult_le_compat_l; auto).
    pose proof (Rmult_le_compat_l (/ INR b) _ _ (Rlt_le _ _ NB) H). lra. }
  intros SP E o Ho.
  assert (ES : rsum b e = rsum b es).
  { apply (Rmult_eq_reg_l (- / INR b * sc)); [lra|]. apply Rmult_integral_contrapositive_currified; lra. }
  pose proof (rsum_le_eq b es e LE ES) as EQ. f_equal. unfold ms. f_equal. apply rsum_ext. intros y Hy. f_equal. f_equal. apply rsum_ext. intros j Hj.
  f_equal. destruct (HY y Hy) as (_ & _ & _ & _ & H & _). apply H; auto. symmetry. auto.
Qed.

Lemma lool_best x : f_kind F = FixedScale -> f_scale F = sc -> 0 < sc ->
  (forall s' F', new_muygps s F names bounds (combine names (map Fin xs)) = Ok (s', F') -> noise_at (full_noise s' F') None 0 0 = 0) ->
  in_box x bounds -> exists v vs,
  (forall o, (o < S)%nat -> obj Lool o x = Ok (v o) /\ obj Lool o xs = Ok (vs o)) /\
  expect S pi v <= expect S pi vs /\ (expect S pi v = expect S pi vs -> forall o, (o < S)%nat -> v o = vs o).
Proof.
  intros FK FS SC NZ BOX.
  destruct (against_truth ls EX slogdet eps gamma kv s F names x0 bounds train N b n c q TN S pi T ix nn t Lool kw draws
     ltac:(split; discriminate) KW BK PR sc xs DA x BOX) as (u & V & us & Vs & e & es & nu & HY & (s' & F' & En & Enu) & HO & HOs).
  rewrite (NZ s' F' En) in Enu. subst nu.
  set (lo := fun (w : nat -> nat -> R) (U : nat -> R) o =>
     rsum b (fun y => (rsum n (fun j => w y j * at_ (T o) [q y j]) - at_ (T o) [c y]) ^ 2 / (sc * U y) + ln (sc * U y))).
  exists (fun o => - lo u V o), (fun o => - lo us Vs o). split.
  { intros o Ho. destruct (HO o Ho) as (scale & L & H1 & BL & EO). destruct (HOs o Ho) as (scale' & L' & H2 & BL' & EO').
    rewrite (H1 FK), FS in BL. rewrite (H2 FK), FS in BL'. cbn [batch_loss] in BL, BL'. unfold lool_entry in BL, BL'.
    split; [transitivity (@Ok R (- L)); [exact EO|]|transitivity (@Ok R (- L')); [exact EO'|]]; unfold lo; f_equal; congruence. }
  assert (EE : forall (w : nat -> nat -> R) (U g : nat -> R), (forall y, (y < b)%nat -> 0 < U y /\ expect S pi (fun o => (rsum n (fun j => w y j * at_ (T o) [q y j]) - at_ (T o) [c y]) ^ 2) = sc * g y) ->
     expect S pi (fun o => - lo w U o) = - rsum b (fun y => sc * g y / (sc * U y) + ln (sc * U y))).
  { intros w U g H. rewrite (expect_ext S pi _ (fun o => (-1) * lo w U o)) by (intros; ring). rewrite expect_scal.
    unfold lo. rewrite expect_rsum. replace (-1 * rsum b (fun j => expect S pi (fun o => (rsum n (fun j0 => w j j0 * at_ (T o) [q j j0]) - at_ (T o) [c j]) ^ 2 / (sc * U j) + ln (sc * U j))))
      with (- rsum b (fun j => expect S pi (fun o => (rsum n (fun j0 => w j j0 * at_ (T o) [q j j0]) - at_ (T o) [c j]) ^ 2 / (sc * U j) + ln (sc * U j)))) by ring.
    f_equal. apply rsum_ext. intros y Hy. destruct (H y Hy) as [UP HE].
    rewrite (expect_ext S pi _ (fun o => / (sc * U y) * (rsum n (fun j => w y j * at_ (T o) [q y j]) - at_ (T o) [c y]) ^ 2 + ln (sc * U y) * 1)).
    2:{ intros; unfold Rdiv; ring. }
    rewrite expect_plus, !expect_scal, HE. unfold expect. rewrite (rsum_ext S _ pi) by (intros; ring). destruct PR as [P1 _]. rewrite P1. unfold Rdiv. ring. }
  rewrite (EE u V e), (EE us Vs es) by (intros y Hy; destruct (HY y Hy) as ([? _] & [? _] & _ & _ & _ & ? & ?); auto).
  assert (LB : forall y, (y < b)%nat -> sc * es y / (sc * Vs y) + ln (sc * Vs y) <= sc * e y / (sc * V y) + ln (sc * V y) /\
     (sc * e y / (sc * V y) + ln (sc * V y) = sc * es y / (sc * Vs y) + ln (sc * Vs y) -> V y = Vs y /\ e y = es y)).
  { intros y Hy. destruct (HY y Hy) as ([V1 _] & [V2 _] & Ees & LE & _). replace (es y) with (Vs y) by lra. apply lik_best; lra. }
  assert (LE : forall y, (y < b)%nat -> sc * es y / (sc * Vs y) + ln (sc * Vs y) <= sc * e y / (sc * V y) + ln (sc * V y)) by (intros y Hy; apply LB; auto).
  split; [apply Ropp_le_contravar, rsum_le; exact LE|]. intros E o Ho.
  assert (ES : rsum b (fun y => sc * e y / (sc * V y) + ln (sc * V y)) = rsum b (fun y => sc * es y / (sc * Vs y) + ln (sc * Vs y))) by lra.
  pose proof (rsum_le_eq b _ _ LE ES) as EQ. f_equal. unfold lo. apply rsum_ext. intros y Hy.
  destruct (proj2 (LB y Hy) (eq_sym (EQ y Hy))) as [EV Ee]. rewrite EV. f_equal. f_equal. f_equal. f_equal. apply rsum_ext. intros j Hj.
  f_equal. destruct (HY y Hy) as (_ & _ & _ & _ & H & _). apply H; auto.
Qed.

(** One neighbour, noise: the likelihood misses the noise of the left-out observation. *)
Lemma lool_biased x nu rho rhos : f_kind F = FixedScale -> f_scale F = sc -> 0 < sc -> n = 1%nat -> 0 < nu -> in_box x bounds ->
  correlations_at gamma kv s F names bounds train x b c q nu rho -> correlations_at gamma kv s F names bounds train xs b c q nu rhos ->
  (forall y, (y < b)%nat -> 0 <= rho y < rhos y /\ (3 * (rhos y - rho y) < nu * rhos y \/ 1 <= nu /\ 0 < rho y)) ->
  exists v vs, (forall o, (o < S)%nat -> obj Lool o x = Ok (v o) /\ obj Lool o xs = Ok (vs o)) /\ expect S pi vs < expect S pi v.
Proof.
  intros FK FS SC N1 NU BOX CX CS HR. pose proof DA as (BOXs & s1 & F1 & K1 & E1 & L1 & U1 & DF).
  destruct (candidate ls EX slogdet eps gamma kv s F names x0 bounds train N b n c q TN S pi T ix nn t Lool kw draws
     ltac:(split; discriminate) KW BK PR x BOX) as (s' & F' & K & u & V & E & OM & TR & WP & EK & OK & HU & HO).
  destruct (candidate ls EX slogdet eps gamma kv s F names x0 bounds train N b n c q TN S pi T ix nn t Lool kw draws
     ltac:(split; discriminate) KW BK PR xs BOXs) as (s2 & F2 & K2 & us & Vs & E2 & OM2 & TR2 & WP2 & EK2 & OK2 & HU2 & HO2).
  rewrite E1 in E2. injection E2 as <- <-. rewrite L1 in EK2. injection EK2 as <-.
  destruct CX as (a1 & a2 & a3 & A1 & A2 & A3 & A4). rewrite E in A1. injection A1 as <- <-. rewrite EK in A2. injection A2 as <-.
  destruct CS as (b1 & b2 & b3 & B1 & B2 & B3 & B4). rewrite E1 in B1. injection B1 as <- <-. rewrite L1 in B2. injection B2 as <-.
  set (k := lk_cov gamma kv K (feature_count train) (reals s') []) in *. set (k1 := lk_cov gamma kv K1 (feature_count train) (reals s1) []) in *.
  set (lo := fun (w : nat -> nat -> R) (U : nat -> R) o =>
     rsum b (fun y => (rsum n (fun j => w y j * at_ (T o) [q y j]) - at_ (T o) [c y]) ^ 2 / (sc * U y) + ln (sc * U y))).
  exists (fun o => - lo u V o), (fun o => - lo us Vs o). split.
  { assert (FX : forall s3 F3 k3 m3 o scale x3, optimized_model s F x3 s3 F3 -> scale_used F3 k3 m3 train (T o) b n q scale -> scale = sc).
    { intros s3 F3 k3 m3 o scale x3 (_ & _ & _ & _ & _ & FK' & FS') SU. unfold scale_used in SU. rewrite FK', FK in SU. congruence. }
    intros o Ho. destruct (HO o Ho) as (scale & L & H1 & BL & EO). destruct (HO2 o Ho) as (scale' & L' & H2 & BL' & EO').
    rewrite (FX _ _ _ _ _ _ _ OM H1) in BL. rewrite (FX _ _ _ _ _ _ _ OM2 H2) in BL'. cbn [batch_loss] in BL, BL'. unfold lool_entry in BL, BL'.
    split; [transitivity (@Ok R (- L)); [exact EO|]|transitivity (@Ok R (- L')); [exact EO'|]]; unfold lo; f_equal; congruence. }
  assert (EE : forall (w : nat -> nat -> R) (U : nat -> R), (forall y, (y < b)%nat -> 0 < U y) ->
     expect S pi (fun o => - lo w U o) = - rsum b (fun y => sc * (1 - 2 * w y O * rhos y + w y O ^ 2 * (1 + nu) + nu) / (sc * U y) + ln (sc * U y))).
  { intros w U H. rewrite (expect_ext S pi _ (fun o => (-1) * lo w U o)) by (intros; ring). rewrite expect_scal.
    unfold lo. rewrite expect_rsum. match goal with |- -1 * ?A = - ?B => assert (A = B) as ->; [|ring] end.
    apply rsum_ext. intros y Hy. specialize (H y Hy).
    rewrite (expect_ext S pi _ (fun o => / (sc * U y) * (rsum n (fun j => w y j * at_ (T o) [q y j]) - at_ (T o) [c y]) ^ 2 + ln (sc * U y) * 1)).
    2:{ intros; unfold Rdiv; ring. }
    rewrite expect_plus, !expect_scal, (residual S pi T k1 (full_noise s1 F1) sc train N n (c y) (q y)); auto.
    2:{ destruct (BK O (outcomes_pos S pi PR)) as [(_ & _ & _ & _ & _ & HC & _) _]. apply HC; auto. }
    2:{ apply (tn_others _ _ _ _ _ _ _ _ _ _ _ TN); auto. }
    unfold expect. rewrite (rsum_ext S _ pi) by (intros; ring). destruct PR as [P1 _]. rewrite P1, B3.
    unfold error_variance, obs_cov. rewrite N1. cbn [rsum noise_at Nat.eqb]. unfold k1.
    rewrite !(self_cov gamma kv K1 (feature_count train) (reals s1) [] train _ OK2). fold k1. rewrite <- (B4 y Hy). unfold Rdiv. ring. }
  assert (W : forall y, (y < b)%nat -> u y O = rho y / (1 + nu) /\ V y = 1 - rho y ^ 2 / (1 + nu) /\ 0 < V y /\
     us y O = rhos y / (1 + nu) /\ Vs y = 1 - rhos y ^ 2 / (1 + nu) /\ 0 < Vs y /\ rhos y <= 1).
  { intros y Hy. destruct (HU y Hy) as (SO & EV & VP & _). destruct (HU2 y Hy) as (SO2 & EV2 & VP2 & _).
    rewrite N1 in SO, EV, SO2, EV2. specialize (SO O ltac:(lia)). specialize (SO2 O ltac:(lia)). cbn beta in SO, SO2.
    unfold nbr_matrix, plus_diag in SO, SO2. rewrite A3 in SO. rewrite B3 in SO2. cbn [rsum Nat.eqb noise_at] in SO, SO2.
    rewrite <- (A4 y Hy) in SO. rewrite <- (B4 y Hy) in SO2.
    unfold k in SO. unfold k1 in SO2.
    rewrite (self_cov gamma kv K (feature_count train) (reals s') [] train _ OK) in SO.
    rewrite (self_cov gamma kv K1 (feature_count train) (reals s1) [] train _ OK2) in SO2.
    unfold dot in EV, EV2. cbn [rsum] in EV, EV2. rewrite <- (A4 y Hy) in EV. rewrite <- (B4 y Hy) in EV2.
    assert (Eu : u y O = rho y / (1 + nu)). { apply (Rmult_eq_reg_l (1 + nu)); [|lra]. replace ((1 + nu) * (rho y / (1 + nu))) with (rho y) by (field; lra). lra. }
    assert (Eus : us y O = rhos y / (1 + nu)). { apply (Rmult_eq_reg_l (1 + nu)); [|lra]. replace ((1 + nu) * (rhos y / (1 + nu))) with (rhos y) by (field; lra). lra. }
    split; [exact Eu|]. split; [rewrite EV, Eu; field; lra|]. split; [exact VP|]. split; [exact Eus|]. split; [rewrite EV2, Eus; field; lra|]. split; [exact VP2|].
    pose proof (lk_cov_psd gamma kv K1 (feature_count train) (reals s1) [] (fun i => feature train (if i =? O then c y else q y O)%nat) 2 OK2
       (fun i => if (i =? O)%nat then 1 else -1)) as P. unfold quad in P. cbn [rsum Nat.eqb] in P.
    assert (S1 : forall a, lk_cov gamma kv K1 (feature_count train) (reals s1) [] (fun f => feature train a f - feature train a f) = 1).
    { intros a. apply (self_cov gamma kv K1 (feature_count train) (reals s1) [] train a OK2). }
    pose proof (lk_cov_sym gamma kv K1 (feature_count train) (reals s1) [] train (q y O) (c y)) as SY.
    rewrite !S1 in P. pose proof (B4 y Hy) as B. unfold kcov in SY, B. fold k1 in P, SY. rewrite <- B in P, SY. rewrite SY in P. lra. }
  rewrite (EE u V), (EE us Vs) by (intros y Hy; apply W; auto). apply Ropp_lt_contravar.
  assert (ST : forall y, (y < b)%nat ->
     sc * (1 - 2 * u y O * rhos y + u y O ^ 2 * (1 + nu) + nu) / (sc * V y) + ln (sc * V y) <
     sc * (1 - 2 * us y O * rhos y + us y O ^ 2 * (1 + nu) + nu) / (sc * Vs y) + ln (sc * Vs y)).
  { intros y Hy. destruct (W y Hy) as (-> & EV & VP & -> & EVs & VPs & R1). destruct (HR y Hy) as [[R0 RL] CO]. apply noise_algebra; auto. }
  pose proof batch_pos as BP.
  assert (LE : rsum b (fun y => sc * (1 - 2 * u y O * rhos y + u y O ^ 2 * (1 + nu) + nu) / (sc * V y) + ln (sc * V y)) <=
    rsum b (fun y => sc * (1 - 2 * us y O * rhos y + us y O ^ 2 * (1 + nu) + nu) / (sc * Vs y) + ln (sc * Vs y))).
  { apply rsum_le. intros y Hy. apply Rlt_le, ST; auto. }
  destruct LE as [H|EQ]; [exact H|exfalso].
  pose proof (rsum_le_eq b _ _ (fun y Hy => Rlt_le _ _ (ST y Hy)) (eq_sym EQ) O BP) as EQ0. cbn beta in EQ0. specialize (ST O BP). lra.
Qed.
End Best.

(** Such data exist for every candidate. *)
Section Exist.
Variables (gamma : R -> R) (kv : R -> R -> R).
Lemma noise_uniform s F names bounds opt s' F' : new_muygps s F names bounds opt = Ok (s', F') -> uniform_noise (full_noise s F) -> uniform_noise (full_noise s' F').
Proof.
  intros E U. pose proof (new_muygps_form _ _ _ _ _ _ _ E) as EF.
  assert (AT : f_attr F' = model_make s' (move_model (st_next s) (f_attr F))) by (subst F'; reflexivity).
  unfold full_noise in *. rewrite AT. cbn [model_make move_model m_noise].
  destruct (m_noise (f_attr F)); cbn in *; destruct U as [U|[v U]]; try discriminate; [right; eauto|left; reflexivity].
Qed.

Lemma drawn_exist ls s F names x0 bounds train N b n c q ix nn targets sc xs : exact_solver ls -> training s F names x0 bounds train N b n c q ->
  uniform_noise (full_noise s F) -> batch_ok train targets ix nn N b n c q -> 0 <= sc -> in_box xs bounds ->
  exists S pi T t, probability S pi /\ drawn_at gamma kv s F names bounds train N S pi T sc xs /\
    forall o, (o < S)%nat -> batch_ok train (T o) ix nn N b n c q /\ full_train_tensors F ix nn train (T o) = Ok (t o).
Proof.
  intros EX TN U BK SC BOX. destruct TN as [T1 T2 T3 T4 T5 T6 T7 T8 T9].
  destruct (tensors_total gamma kv s F train targets ix nn N b n c q T7 BK) as [t0 E0].
  destruct (candidate_value ls EX (fun _ _ => (0, 0)) 0 gamma kv s F Mse [] (fun _ => []) train targets ix nn N b n c q names x0 bounds t0) with (x := xs)
    as (s' & F' & v & E & OM & _ & LV & TR & WP); auto; [intros p []|split; discriminate|].
  pose proof TR as (_ & (K & EK & OK) & _). pose proof (noise_uniform _ _ _ _ _ _ _ E U) as U'.
  assert (NN : 0 <= noise_at (full_noise s' F') None 0 0).
  { destruct BK as (_ & _ & Hb & Hn & _). destruct (WP O Hb) as [P|(P & _)]; [apply Rlt_le|]; apply (P O Hn). }
  destruct (data_moments_exist gamma kv K (reals s') (full_noise s' F') sc train train O N OK SC NN) as (S & pi & f & y & DM). destruct DM as [DP _ _ DO].
  set (T := fun o => mkNd [N] (fun idx => y (hd O idx) o) : nd R).
  assert (BT : forall o, batch_ok train (T o) ix nn N b n c q).
  { intros o. destruct BK as (B1 & B2 & B3 & B4 & B5 & B6 & B7). unfold batch_ok. split; [exact B1|]. split; [reflexivity|]. auto. }
  exists S, pi, T, (fun o => match full_train_tensors F ix nn train (T o) with Ok t => t | Err _ => t0 end).
  split; [exact DP|]. split.
  - split; [exact BOX|]. exists s', F', K. split; [exact E|]. split; [exact EK|]. split; [exact U'|]. split; [exact DP|].
    intros a d Ha Hd. apply DO; auto.
  - intros o Ho. split; [apply BT|]. destruct (tensors_total gamma kv s F train (T o) ix nn N b n c q T7 (BT o)) as [t1 E1]. rewrite E1. reflexivity.
Qed.
End Exist.
