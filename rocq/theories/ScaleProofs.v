(** Proofs about scale optimisation (C20, C24, C33, C34, C56). *)
From Coq Require Import Lia Lra Sorted Permutation.
From Verif Require Import Base BaseFacts NdModel NdFacts RSum LinAlgModel LinAlgSpec LinAlgFacts
  GPModel GPProofs NoiseModel NoiseProofs MuyGPSModel GPSpec MuyGPSProofs GPTheorems ScaleSpec.
Local Open Scope R_scope.

Lemma solves_scal n A c x b : c <> 0 -> solves n A x b -> solves n (fun i j => c * A i j) (fun i => x i / c) b.
Proof.
  intros Hc H i Hi. rewrite <- (H i Hi). apply rsum_ext; intros j Hj. field; auto.
Qed.

Lemma solves_unscal n A c x b : c <> 0 -> solves n (fun i j => c * A i j) x b -> solves n A (fun i => c * x i) b.
Proof.
  intros Hc H i Hi. rewrite <- (H i Hi). apply rsum_ext; intros j Hj. ring.
Qed.

Lemma dot_ext n x x' y y' : (forall i, (i < n)%nat -> x i = x' i) -> (forall i, (i < n)%nat -> y i = y' i) ->
  dot n x y = dot n x' y'.
Proof. intros H1 H2. unfold dot. apply rsum_ext; intros i Hi. rewrite H1, H2; auto. Qed.

Lemma dot_scal_r n x y c : dot n x (fun i => c * y i) = c * dot n x y.
Proof. unfold dot. rewrite <- rsum_scal. apply rsum_ext; intros; ring. Qed.

Section T.
Variable ls : lsolver.
Hypothesis Hls : exact_solver ls.

(** The first pass of the analytic optimiser. *)
Lemma analytic_once m Kin T b n :
  noise_fits m b n -> shape Kin = [b; n; n] -> univariate_shape T b n ->
  forall s, (let! pK := perturb m Kin None in analytic_scale ls pK T) = Ok s ->
  (forall x, (x < b)%nat -> nonsingular n (noisy m Kin x)) /\
  exists c, (forall x, (x < b)%nat -> solves n (noisy m Kin x) (c x) (tgt T x)) /\
    s = rsum b (fun x => dot n (tgt T x) (c x)) / INR (b * n).
Proof.
  intros Hf HK HT s. destruct (perturb3 m None Kin b n Hf HK) as (K & EK & SK & HKv).
  rewrite EK; cbn [bind]. intros E.
  assert (EE : forall x i j, (x < b)%nat -> (i < n)%nat -> (j < n)%nat -> rowmat K x i j = noisy m Kin x i j).
  { intros x i j Hx Hi Hj. unfold rowmat, noisy, plus_diag, rowmat. rewrite HKv; auto. }
  destruct (analytic_char ls Hls _ _ _ _ _ SK HT E) as [Hns (c & Hc & Hs)].
  split; [intros x Hx; apply (nonsingular_ext n (rowmat K x)); auto|].
  exists c. split; auto. intros x Hx. apply (solves_ext n (rowmat K x)); auto.
Qed.

Lemma analytic_once_total m Kin T b n :
  noise_fits m b n -> shape Kin = [b; n; n] -> univariate_shape T b n ->
  (forall x, (x < b)%nat -> nonsingular n (noisy m Kin x)) ->
  exists s, (let! pK := perturb m Kin None in analytic_scale ls pK T) = Ok s.
Proof.
  intros Hf HK HT Hns. destruct (perturb3 m None Kin b n Hf HK) as (K & EK & SK & HKv).
  rewrite EK; cbn [bind]. apply (analytic_total ls Hls K T b n); auto.
  intros x Hx. apply (nonsingular_ext n (noisy m Kin x)); auto.
  intros i j Hi Hj. unfold rowmat, noisy, plus_diag, rowmat. rewrite HKv; auto.
Qed.

Lemma ml_unique b n K y q q' : (forall x, (x < b)%nat -> nonsingular n (K x)) ->
  total_quad b n K y q -> total_quad b n K y q' -> q = q'.
Proof.
  intros Hns (c & Hc & ->) (c' & Hc' & ->). apply rsum_ext; intros x Hx.
  apply dot_ext; auto. apply (solves_unique n (K x) (c x) (c' x) (y x)); auto.
Qed.

(** One averaging pass: with S the analytic scale, s |-> (s + S/s)/2. *)
Lemma analytic_step_eq g Kin T b n S s :
  noise_fits (gp_noise g) b n -> shape Kin = [b; n; n] -> univariate_shape T b n -> s <> 0 ->
  (let! pK := perturb (gp_noise g) Kin None in analytic_scale ls pK T) = Ok S ->
  analytic_step ls g Kin T s = Ok ((s + S / s) / 2).
Proof.
  intros Hf HK HT Hs E. destruct (analytic_once _ _ _ _ _ Hf HK HT _ E) as [Hns (c & Hc & HS)].
  unfold analytic_step. destruct (perturb3 (gp_noise g) None Kin b n Hf HK) as (K & EK & SK & HKv).
  rewrite EK; cbn [bind].
  assert (EE : forall x, (x < b)%nat -> solves n (rowmat (ndmap (Rmult s) K) x) (fun i => c x i / s) (tgt T x)).
  { intros x Hx. apply (solves_ext n (fun i j => s * noisy (gp_noise g) Kin x i j)).
    - intros i j Hi Hj. unfold rowmat at 1. simpl. unfold noisy, plus_diag, rowmat. rewrite HKv; auto.
    - apply solves_scal; auto. }
  destruct (analytic_total ls Hls (ndmap (Rmult s) K) T b n) as [s' Es']; auto.
  { intros x Hx y Hy j Hj.
    apply (Hns x Hx y); auto.
    intros i Hi. specialize (Hy i Hi).
    apply (Rmult_eq_reg_l s); auto. rewrite Rmult_0_r. rewrite <- Hy, <- rsum_scal.
    apply rsum_ext; intros l Hl. unfold rowmat at 1. simpl. unfold noisy, plus_diag, rowmat.
    rewrite HKv by auto. ring. }
  rewrite Es'; cbn [bind]. f_equal.
  rewrite (analytic_value ls Hls _ _ b n s' (fun x i => c x i / s) (SK : shape (ndmap (Rmult s) K) = _) HT Es' EE).
  rewrite HS.
  rewrite (rsum_ext b (fun x => dot n (tgt T x) (fun i => c x i / s))
     (fun x => / s * dot n (tgt T x) (c x))).
  2:{ intros x Hx. rewrite <- dot_scal_r. apply dot_ext; auto. intros; field; auto. }
  rewrite rsum_scal. unfold Rdiv. replace 0.5 with (/ 2) by lra. ring.
Qed.
(** C33: documented formula, for one pass (the default). *)
Lemma c33_formula g it kw Kin T b n :
  (it <= 1)%nat -> (0 < b)%nat -> (0 < n)%nat ->
  noise_fits (gp_noise g) b n -> shape Kin = [b; n; n] -> univariate_shape T b n ->
  (forall x, (x < b)%nat -> nonsingular n (noisy (gp_noise g) Kin x)) ->
  exists s, analytic_scale_opt ls g it Kin T kw = Ok s /\
    ml_scale b n (noisy (gp_noise g) Kin) (tgt T) s.
Proof.
  intros Hit Hb Hn Hf HK HT Hns.
  destruct (analytic_once_total _ _ _ _ _ Hf HK HT Hns) as [s Es].
  destruct (analytic_once _ _ _ _ _ Hf HK HT _ Es) as [_ (c & Hc & HS)].
  exists s. split.
  - unfold analytic_scale_opt. destruct (perturb (gp_noise g) Kin None) as [pK|e]; cbn [bind] in *; [|discriminate].
    rewrite Es; cbn [bind]. replace (it - 1)%nat with O by lia. reflexivity.
  - exists (rsum b (fun x => dot n (tgt T x) (c x))). split.
    + exists c. auto.
    + rewrite HS, mult_INR. reflexivity.
Qed.

Lemma c33_inv g it kw Kin T b n s :
  (it <= 1)%nat ->
  noise_fits (gp_noise g) b n -> shape Kin = [b; n; n] -> univariate_shape T b n ->
  analytic_scale_opt ls g it Kin T kw = Ok s ->
  (forall x, (x < b)%nat -> nonsingular n (noisy (gp_noise g) Kin x)) /\
  ml_scale b n (noisy (gp_noise g) Kin) (tgt T) s.
Proof.
  intros Hit Hf HK HT E.
  assert (Es : (let! pK := perturb (gp_noise g) Kin None in analytic_scale ls pK T) = Ok s).
  { unfold analytic_scale_opt in E. destruct (perturb (gp_noise g) Kin None) as [pK|e]; cbn [bind] in *; [|discriminate].
    destruct (analytic_scale ls pK T) as [s0|e]; cbn [bind] in *; [|discriminate].
    replace (it - 1)%nat with O in E by lia. exact E. }
  destruct (analytic_once _ _ _ _ _ Hf HK HT _ Es) as [Hns (c & Hc & HS)]. split; auto.
  exists (rsum b (fun x => dot n (tgt T x) (c x))). split.
  - exists c. auto.
  - rewrite HS, mult_INR. reflexivity.
Qed.

(** The formula is nonnegative for positive semidefinite K. *)
Lemma ml_scale_nonneg b n K y s :
  (forall x, (x < b)%nat -> psd n (K x)) -> ml_scale b n K y s -> 0 <= s.
Proof.
  intros Hp (q & (c & Hc & ->) & ->).
  assert (H : 0 <= rsum b (fun x => dot n (y x) (c x))).
  { apply rsum_nonneg. intros x Hx. rewrite dot_comm, <- (quad_solves n (K x)) by auto. apply Hp; auto. }
  unfold Rdiv. apply Rmult_le_pos; auto.
  destruct (Rle_lt_or_eq_dec 0 (INR b * INR n)) as [P|P].
  - apply Rmult_le_pos; apply pos_INR.
  - left. apply Rinv_0_lt_compat; auto.
  - rewrite <- P, Rinv_0. lra.
Qed.

(** Strict positivity: positive definite K and a nonzero target. *)
Lemma ml_scale_pos b n K y s :
  (forall x, (x < b)%nat -> pd n (K x)) ->
  (exists x i, (x < b)%nat /\ (i < n)%nat /\ y x i <> 0) -> ml_scale b n K y s -> 0 < s.
Proof.
  intros Hp (x0 & i0 & Hx0 & Hi0 & Hy) (q & (c & Hc & ->) & ->).
  assert (Hpsd : forall x, (x < b)%nat -> 0 <= dot n (y x) (c x)).
  { intros x Hx. rewrite dot_comm, <- (quad_solves n (K x)) by auto.
    destruct (Rle_lt_dec 0 (quad n (K x) (c x))) as [|Hneg]; auto. exfalso.
    assert (exists i, (i < n)%nat /\ c x i <> 0) as HE.
    {      destruct (List.existsb (fun i => negb (Reqb (c x i) 0)) (seq 0 n)) eqn:Ex.
      - apply List.existsb_exists in Ex as (i & Hi & Hb). apply in_seq in Hi. exists i. split; [lia|].
        intros Z. apply Reqb_true in Z. rewrite Z in Hb. discriminate.
      - exfalso. assert (Hz : forall i, (i < n)%nat -> c x i = 0).
        { intros i Hi. apply Reqb_true. destruct (Reqb (c x i) 0) eqn:Eb; auto.
          assert (List.existsb (fun i => negb (Reqb (c x i) 0)) (seq 0 n) = true) as Ht.
          { apply List.existsb_exists. exists i. split; [apply in_seq; lia|]. rewrite Eb; auto. }
          congruence. }
        unfold quad in Hneg. rewrite (rsum_ext n _ (fun _ => 0)) in Hneg.
        + rewrite rsum_0 in Hneg. lra.
        + intros i Hi. rewrite (rsum_ext n _ (fun _ => 0)); [apply rsum_0|].
          intros j Hj. rewrite Hz by auto. ring. }
    pose proof (Hp x Hx (c x) HE). lra. }
  assert (H0 : 0 < dot n (y x0) (c x0)).
  { rewrite dot_comm, <- (quad_solves n (K x0)) by auto. apply Hp; auto.
    destruct (List.existsb (fun i => negb (Reqb (c x0 i) 0)) (seq 0 n)) eqn:Ex.
    - apply List.existsb_exists in Ex as (i & Hi & Hb). apply in_seq in Hi. exists i. split; [lia|].
      intros Z. apply Reqb_true in Z. rewrite Z in Hb. discriminate.
    - exfalso. apply Hy. rewrite <- (Hc x0 Hx0 i0 Hi0).
      rewrite (rsum_ext n _ (fun _ => 0)); [apply rsum_0|]. intros j Hj.
      assert (c x0 j = 0) as ->; [|ring].
      apply Reqb_true. destruct (Reqb (c x0 j) 0) eqn:Eb; auto.
      assert (List.existsb (fun i => negb (Reqb (c x0 i) 0)) (seq 0 n) = true) as Ht.
      { apply List.existsb_exists. exists j. split; [apply in_seq; lia|]. rewrite Eb; auto. }
      congruence. }
  assert (H1 : 0 < rsum b (fun x => dot n (y x) (c x))).
  { eapply Rlt_le_trans; [exact H0|].
    apply (rsum_term_le b (fun x => dot n (y x) (c x))); auto. }
  apply Rdiv_lt_0_compat; auto.
  apply Rmult_lt_0_compat; apply lt_0_INR; lia.
Qed.

(** Quadratic scaling in the targets. *)
Lemma ml_scale_quadratic b n K y s a :
  ml_scale b n K y s -> ml_scale b n K (fun x i => a * y x i) (a * a * s).
Proof.
  intros (q & (c & Hc & ->) & ->).
  exists (a * a * rsum b (fun x => dot n (y x) (c x))). split; [|unfold Rdiv; ring].
  exists (fun x i => a * c x i). split.
  - intros x Hx i Hi. rewrite <- (Hc x Hx i Hi), <- rsum_scal. apply rsum_ext; intros; ring.
  - rewrite <- rsum_scal. apply rsum_ext; intros x Hx. unfold dot. rewrite <- rsum_scal.
    apply rsum_ext; intros; ring.
Qed.

Lemma ml_scale_unique b n K y s s' :
  (forall x, (x < b)%nat -> nonsingular n (K x)) -> ml_scale b n K y s -> ml_scale b n K y s' -> s = s'.
Proof.
  intros Hns (q & Hq & ->) (q' & Hq' & ->). rewrite (ml_unique b n K y q q'); auto.
Qed.

Lemma ln_le_sub u : 0 < u -> ln u <= u - 1.
Proof.
  intros Hu. destruct (Req_EM_T (ln u) 0) as [E|E].
  - rewrite E. assert (u = 1) as ->; [|lra]. rewrite <- (exp_ln u), E, exp_0; auto.
  - pose proof (exp_ineq1 (ln u) E). rewrite exp_ln in H by auto. lra.
Qed.

Lemma ln_lt_sub u : 0 < u -> u <> 1 -> ln u < u - 1.
Proof.
  intros Hu H1. destruct (Req_EM_T (ln u) 0) as [E|E].
  - exfalso. apply H1. rewrite <- (exp_ln u), E, exp_0; auto.
  - pose proof (exp_ineq1 (ln u) E). rewrite exp_ln in H by auto. lra.
Qed.

(** The maximum-likelihood property, with a unique maximiser. *)
Lemma loglik_value b n K y s s' L :
  (0 < b)%nat -> (0 < n)%nat ->
  (forall x, (x < b)%nat -> nonsingular n (K x)) -> ml_scale b n K y s -> 0 < s' ->
  batch_loglik b n K y s' L ->
  L = - (INR b * INR n / 2) * (ln s' + s / s').
Proof.
  intros Hb Hn Hns (q & (c & Hc & ->) & Hs) Hs' (c' & Hc' & ->).
  assert (E : forall x, (x < b)%nat -> dot n (y x) (c' x) = / s' * dot n (y x) (c x)).
  { intros x Hx. rewrite <- dot_scal_r. apply dot_ext; auto. intros i Hi.
    assert (s' * c' x i = c x i) as <-.
    { apply (solves_unique n (K x) (fun i => s' * c' x i) (c x) (y x)); auto.
      apply solves_unscal; auto. lra. }
    field. lra. }
  rewrite (rsum_ext b _ (fun x => - (INR n / 2) * ln s' + - (/ s' / 2) * dot n (y x) (c x))).
  2:{ intros x Hx. rewrite E by auto. unfold Rdiv. ring. }
  rewrite rsum_plus, rsum_const, rsum_scal.
  set (Q := rsum b (fun x => dot n (y x) (c x))) in *.
  assert (P : INR b * INR n <> 0).
  { apply Rgt_not_eq. apply Rmult_lt_0_compat; apply lt_0_INR; lia. }
  assert (Q = s * (INR b * INR n)) as ->.
  { rewrite Hs. field. split; intro Z; apply P; rewrite Z; ring. }
  field. lra.
Qed.

Lemma ml_scale_maximizes b n K y s s' L L' :
  (0 < b)%nat -> (0 < n)%nat ->
  (forall x, (x < b)%nat -> nonsingular n (K x)) ->
  ml_scale b n K y s -> 0 < s -> 0 < s' ->
  batch_loglik b n K y s L -> batch_loglik b n K y s' L' ->
  L' <= L /\ (s' <> s -> L' < L).
Proof.
  intros Hb Hn Hns Hml Hs Hs' HL HL'.
  rewrite (loglik_value _ _ _ _ _ _ _ Hb Hn Hns Hml Hs HL), (loglik_value _ _ _ _ _ _ _ Hb Hn Hns Hml Hs' HL').
  assert (P : 0 < INR b * INR n / 2).
  { apply Rdiv_lt_0_compat; [|lra]. apply Rmult_lt_0_compat; apply lt_0_INR; lia. }
  assert (Hu : 0 < s / s') by (apply Rdiv_lt_0_compat; auto).
  assert (El : ln (s / s') = ln s - ln s').
  { unfold Rdiv. rewrite ln_mult; auto; [|apply Rinv_0_lt_compat; auto]. rewrite ln_Rinv; auto. }
  replace (s / s) with 1 by (field; lra).
  split.
  - pose proof (ln_le_sub _ Hu). nra.
  - intros Hne. assert (s / s' <> 1).
    { intros Z. apply Hne. apply (Rmult_eq_reg_r (/ s')); [|apply Rinv_neq_0_compat; lra].
      unfold Rdiv in Z. rewrite Z. field. lra. }
    pose proof (ln_lt_sub _ Hu H). nra.
Qed.

(** A likelihood value exists at every positive scale (so the statements above are not vacuous). *)
Lemma loglik_exists b n K y s s' :
  ml_scale b n K y s -> 0 < s' -> exists L, batch_loglik b n K y s' L.
Proof.
  intros (q & (c & Hc & ->) & Hs) Hs'.
  eexists. exists (fun x i => c x i / s'). split; [|reflexivity].
  intros x Hx. apply solves_scal; [lra|auto].
Qed.

(** optimize_scale stores the value and rebinds the posterior variance to it. *)
Lemma optimize_scale_spec g it draws Kin T s :
  gp_kind g = AnalyticScale it ->
  analytic_scale_opt ls g it Kin T None = Ok s ->
  (0 < s -> exists g', optimize_scale ls g draws Kin T = Ok g' /\ gp_scale g' = s /\ gp_var_scale g' = s /\
     gp_noise g' = gp_noise g /\ gp_kind g' = gp_kind g /\ gp_Kout g' = gp_Kout g) /\
  (s <= 0 -> optimize_scale ls g draws Kin T = Err ValueError).
Proof.
  intros Hk Es. unfold optimize_scale, scale_opt. rewrite Hk, Es. cbn [rmap bind].
  unfold scale_set, check_positive_float. split; intros Hs.
  - rewrite (proj2 (Rleb_false s 0)) by lra. cbn [bind].
    eexists. split; [reflexivity|]. cbn. auto.
  - rewrite (proj2 (Rleb_true s 0)) by lra. reflexivity.
Qed.

(** C33 finding: more than one iteration leaves the maximum-likelihood value. *)
Lemma c33_two_iterations g kw Kin T b n S :
  noise_fits (gp_noise g) b n -> shape Kin = [b; n; n] -> univariate_shape T b n -> 0 < S ->
  analytic_scale_opt ls g 1 Kin T kw = Ok S ->
  analytic_scale_opt ls g 2 Kin T kw = Ok ((S + 1) / 2).
Proof.
  intros Hf HK HT HS E.
  assert (Es : (let! pK := perturb (gp_noise g) Kin None in analytic_scale ls pK T) = Ok S).
  { unfold analytic_scale_opt in E. destruct (perturb (gp_noise g) Kin None) as [pK|e]; cbn [bind] in *; [|discriminate].
    destruct (analytic_scale ls pK T) as [s0|e]; cbn [bind] in *; [|discriminate]. exact E. }
  unfold analytic_scale_opt. destruct (perturb (gp_noise g) Kin None) as [pK|e] eqn:EK; cbn [bind] in *; [|discriminate].
  rewrite Es; cbn [bind]. cbn [Nat.sub analytic_loop].
  rewrite (analytic_step_eq g Kin T b n S S) by (auto; try lra; rewrite EK; exact Es).
  cbn [bind]. f_equal. field. lra.
Qed.

(** Every further iterate stays at or above the square root of the analytic scale. *)
Lemma babylon s S : 0 < s -> 0 < S -> sqrt S <= (s + S / s) / 2.
Proof.
  intros Hs HS. pose proof (sqrt_sqrt S (Rlt_le _ _ HS)) as E. pose proof (sqrt_lt_R0 S HS) as Hp.
  apply (Rmult_le_reg_r (2 * s)); [lra|].
  replace ((s + S / s) / 2 * (2 * s)) with (s * s + S) by (field; lra).
  set (r := sqrt S) in *. rewrite <- E. clearbody r. assert (0 <= (s - r) * (s - r)) by apply Rle_0_sqr. lra.
Qed.

Lemma babylon_contract s S : 0 < S -> sqrt S <= s ->
  (s + S / s) / 2 - sqrt S <= (s - sqrt S) / 2.
Proof.
  intros HS Hle. pose proof (sqrt_sqrt S (Rlt_le _ _ HS)) as E. pose proof (sqrt_lt_R0 S HS) as Hp.
  assert (Hs : 0 < s) by lra.
  assert (S / s <= sqrt S).
  { apply (Rmult_le_reg_r s); auto. unfold Rdiv. rewrite Rmult_assoc, Rinv_l, Rmult_1_r by lra. nra. }
  lra.
Qed.

(** analytic_loop after k >= 1 extra passes: within (S+1)/2^k of sqrt S. *)
Lemma c33_loop g Kin T b n S k : 
  noise_fits (gp_noise g) b n -> shape Kin = [b; n; n] -> univariate_shape T b n -> 0 < S ->
  (let! pK := perturb (gp_noise g) Kin None in analytic_scale ls pK T) = Ok S ->
  forall s, sqrt S <= s ->
  exists v, analytic_loop ls g Kin T k s = Ok v /\ sqrt S <= v /\ v - sqrt S <= (s - sqrt S) / 2 ^ k.
Proof.
  intros Hf HK HT HS Es. pose proof (sqrt_lt_R0 S HS) as Hp.
  induction k as [|k IH]; intros s Hs.
  - exists s. cbn. split; auto. split; auto. lra.
  - cbn [analytic_loop]. rewrite (analytic_step_eq g Kin T b n S s) by (auto; lra).
    cbn [bind]. destruct (IH ((s + S / s) / 2)) as (v & Ev & H1 & H2).
    { apply babylon; auto; lra. }
    exists v. split; auto. split; auto.
    pose proof (babylon_contract s S HS Hs) as H3.
    assert (0 < 2 ^ k) by (apply pow_lt; lra).
    apply (Rle_trans _ _ _ H2). simpl.
    apply (Rmult_le_reg_r (2 ^ k)); auto.
    unfold Rdiv. rewrite Rmult_assoc, Rinv_l, Rmult_1_r by lra.
    replace ((s - sqrt S) * / (2 * 2 ^ k) * 2 ^ k) with ((s - sqrt S) / 2) by (field; lra). exact H3.
Qed.

Lemma c33_iterated g kw Kin T b n S k :
  noise_fits (gp_noise g) b n -> shape Kin = [b; n; n] -> univariate_shape T b n -> 0 < S ->
  analytic_scale_opt ls g 1 Kin T kw = Ok S ->
  exists v, analytic_scale_opt ls g (k + 2) Kin T kw = Ok v /\
    sqrt S <= v /\ v - sqrt S <= ((S + 1) / 2 - sqrt S) / 2 ^ k.
Proof.
  intros Hf HK HT HS E.
  assert (Es : (let! pK := perturb (gp_noise g) Kin None in analytic_scale ls pK T) = Ok S).
  { unfold analytic_scale_opt in E. destruct (perturb (gp_noise g) Kin None) as [pK|e]; cbn [bind] in *; [|discriminate].
    destruct (analytic_scale ls pK T) as [s0|e]; cbn [bind] in *; [|discriminate]. exact E. }
  destruct (c33_loop g Kin T b n S k Hf HK HT HS Es ((S + 1) / 2)) as (v & Ev & H1 & H2).
  { replace ((S + 1) / 2) with ((S + S / S) / 2) by (field; lra). apply babylon; auto. }
  exists v. split; auto. unfold analytic_scale_opt.
  destruct (perturb (gp_noise g) Kin None) as [pK|e] eqn:EK; cbn [bind] in *; [|discriminate].
  rewrite Es; cbn [bind]. replace (k + 2 - 1)%nat with (Datatypes.S k) by lia. cbn [analytic_loop].
  rewrite (analytic_step_eq g Kin T b n S S) by (auto; try lra; rewrite EK; exact Es).
  cbn [bind]. replace ((S + S / S) / 2) with ((S + 1) / 2) by (field; lra). exact Ev.
Qed.

(** Multiple responses are not supported by the analytic scale. *)
Lemma c33_multi_response g it kw Kin T b n r :
  (0 < b)%nat -> (0 < n)%nat -> r <> 1%nat ->
  noise_fits (gp_noise g) b n -> shape Kin = [b; n; n] -> shape T = [b; n; r] ->
  analytic_scale_opt ls g it Kin T kw = Err ValueError.
Proof.
  intros Hb Hn Hr Hf HK HT. unfold analytic_scale_opt.
  destruct (perturb3 (gp_noise g) None Kin b n Hf HK) as (K & EK & SK & _). rewrite EK; cbn [bind].
  rewrite (analytic_unfold ls K T b n) by auto.
  destruct (reshape_ok K [b; n; n]) as [Kf EKf]; [rewrite SK; auto|]. rewrite EKf; cbn [bind].
  rewrite reshape_err; auto. rewrite HT, !nprod_cons, nprod0. nia.
Qed.

(** C20: the analytic scale does not depend on the order of the neighbours. *)
Lemma ml_scale_perm b n K K' y y' p s :
  (forall x, (x < b)%nat -> perm_on n (p x)) ->
  (forall x i j, (x < b)%nat -> (i < n)%nat -> (j < n)%nat -> K' x i j = K x (p x i) (p x j)) ->
  (forall x i, (x < b)%nat -> (i < n)%nat -> y' x i = y x (p x i)) ->
  ml_scale b n K y s -> ml_scale b n K' y' s.
Proof.
  intros Hp HK Hy (q & (c & Hc & ->) & ->). eexists; split; [|reflexivity].
  exists (fun x i => c x (p x i)). split.
  - intros x Hx. pose proof (solves_perm n _ _ _ (p x) (Hp x Hx) (Hc x Hx)) as H.
    intros i Hi. rewrite Hy by auto. rewrite <- (H i Hi). apply rsum_ext; intros j Hj. rewrite HK; auto.
  - apply rsum_ext; intros x Hx. unfold dot.
    rewrite <- (rsum_perm n (p x) (fun i => y x i * c x i)) by auto.
    apply rsum_ext; intros i Hi. rewrite Hy; auto.
Qed.

(** C24: histories of optimize_scale calls keep the posterior variance bound to the scale. *)
Inductive scale_history : gp -> gp -> Prop :=
| sh_nil g : scale_history g g
| sh_opt g g1 g2 draws Kin T :
    optimize_scale ls g draws Kin T = Ok g1 -> scale_history g1 g2 -> scale_history g g2.

Lemma scale_history_bound g g' : scale_history g g' ->
  gp_var_scale g = gp_scale g ->
  gp_var_scale g' = gp_scale g' /\ gp_noise g' = gp_noise g /\ gp_Kout g' = gp_Kout g /\
  (0 < gp_scale g -> 0 < gp_scale g').
Proof.
  induction 1 as [g|g g1 g2 draws Kin T E H IH]; intros Hg; [auto|].
  assert (gp_var_scale g1 = gp_scale g1 /\ gp_noise g1 = gp_noise g /\ gp_Kout g1 = gp_Kout g /\ 0 < gp_scale g1) as (H1 & H2 & H3 & H4).
  { unfold optimize_scale in E. apply bind_ok in E as (o & _ & E). destruct o as [v|]; [|discriminate].
    apply bind_ok in E as (g0 & E0 & E). inversion E; subst g1. unfold scale_set, check_positive_float in E0.
    destruct (Rleb v 0) eqn:Ev; cbn [bind] in E0; [discriminate|]. apply Rleb_false in Ev.
    inversion E0; subst g0. cbn. auto. }
  destruct (IH H1) as (I1 & I2 & I3 & I4). split; auto. split; [congruence|]. split; [congruence|]. auto.
Qed.

Lemma c24_history g g' Kin Kcross v :
  gp_var_scale g = gp_scale g -> scale_history g g' ->
  gp_opt_variance ls g' Kin Kcross None = Ok v ->
  exists t, gp_posterior_variance ls g' Kin Kcross = Ok t /\ shape t = shape v /\
    forall idx, at_ t idx = gp_scale g' * at_ v idx.
Proof.
  intros Hg H E. destruct (scale_history_bound _ _ H Hg) as (H1 & _).
  unfold gp_posterior_variance. rewrite E; cbn [bind]. eexists; split; [reflexivity|].
  split; [reflexivity|]. intros idx. cbn. rewrite H1. reflexivity.
Qed.

Lemma c24_mean_history g g' Kin Kcross T kw :
  gp_var_scale g = gp_scale g -> scale_history g g' ->
  gp_posterior_mean ls g' Kin Kcross T kw = gp_posterior_mean ls g Kin Kcross T kw.
Proof.
  intros Hg H. destruct (scale_history_bound _ _ H Hg) as (_ & H2 & _).
  unfold gp_posterior_mean. rewrite H2. reflexivity.
Qed.

(** C56 *)
Lemma insert_R_perm a l : Permutation (a :: l) (insert_R a l).
Proof.
  induction l as [|b l IH]; cbn; auto. destruct (Rleb a b); auto.
  rewrite perm_swap. constructor. exact IH.
Qed.
Lemma sort_R_perm l : Permutation l (sort_R l).
Proof.
  induction l as [|a l IH]; cbn; auto. rewrite IH at 1. apply insert_R_perm.
Qed.
Lemma insert_R_sorted a l : Sorted Rle l -> Sorted Rle (insert_R a l).
Proof.
  induction l as [|b l IH]; cbn; intros H; [repeat constructor|].
  destruct (Rleb a b) eqn:E.
  - apply Rleb_true in E. constructor; auto.
  - apply Rleb_false in E. inversion H; subst. constructor; auto.
    destruct l as [|c l]; cbn in *; [constructor; lra|].
    destruct (Rleb a c); constructor; [lra|]. inversion H3; auto.
Qed.
Lemma sort_R_sorted l : Sorted Rle (sort_R l).
Proof. induction l as [|a l IH]; cbn; [constructor|]. apply insert_R_sorted; auto. Qed.

Lemma median_spec l m : median l = Some m -> is_median l m.
Proof.
  unfold median. destruct (Nat.eqb_spec (List.length l) 0); [discriminate|].
  pose proof (Permutation_length (sort_R_perm l)) as HL. intros H.
  exists (sort_R l). split; [apply sort_R_perm|]. split; [apply sort_R_sorted|].
  remember (List.length l / 2)%nat as d eqn:Hd.
  destruct (Nat.odd (List.length l)) eqn:Eo; injection H as Hm; subst m.
  - left. apply Nat.odd_spec in Eo as [k Ek]. exists k. split; [lia|].
    assert (k = d) as ->; auto. rewrite Hd, Ek. apply (Nat.div_unique _ _ _ 1%nat); lia.
  - right. assert (Ee : Nat.even (List.length l) = true) by (rewrite <- Nat.negb_odd, Eo; auto).
    apply Nat.even_spec in Ee as [k Ek]. exists (k - 1)%nat. split; [lia|].
    assert (k = d) as <- by (rewrite Hd, Ek; apply (Nat.div_unique _ _ _ 0%nat); lia).
    replace (Datatypes.S (k - 1)) with k by lia. reflexivity.
Qed.

Lemma median_some l : l <> [] -> exists m, median l = Some m.
Proof.
  intros H. unfold median. destruct (Nat.eqb_spec (List.length l) 0) as [E|E].
  - apply length_zero_iff_nil in E. contradiction.
  - destruct (Nat.odd (List.length l)); eauto.
Qed.
Lemma c33_ml g it kw Kin T b n s s' L L' :
  (it <= 1)%nat -> (0 < b)%nat -> (0 < n)%nat ->
  noise_fits (gp_noise g) b n -> shape Kin = [b; n; n] -> univariate_shape T b n ->
  analytic_scale_opt ls g it Kin T kw = Ok s -> 0 < s -> 0 < s' ->
  batch_loglik b n (noisy (gp_noise g) Kin) (tgt T) s L ->
  batch_loglik b n (noisy (gp_noise g) Kin) (tgt T) s' L' ->
  L' <= L /\ (s' <> s -> L' < L).
Proof.
  intros Hit Hb Hn Hf HK HT E Hs Hs' HL HL'.
  destruct (c33_inv g it kw Kin T b n s Hit Hf HK HT E) as [Hns Hml].
  apply (ml_scale_maximizes b n (noisy (gp_noise g) Kin) (tgt T) s s'); auto.
Qed.

Lemma c33_nonneg g it kw Kin T b n s :
  (it <= 1)%nat -> noise_fits (gp_noise g) b n -> shape Kin = [b; n; n] -> univariate_shape T b n ->
  (forall x, (x < b)%nat -> psd n (noisy (gp_noise g) Kin x)) ->
  analytic_scale_opt ls g it Kin T kw = Ok s -> 0 <= s.
Proof.
  intros Hit Hf HK HT Hp E.
  destruct (c33_inv g it kw Kin T b n s Hit Hf HK HT E) as [Hns Hml].
  apply (ml_scale_nonneg b n (noisy (gp_noise g) Kin) (tgt T)); auto.
Qed.

Lemma ml_scale_ext b n K y y' s :
  (forall x i, (x < b)%nat -> (i < n)%nat -> y' x i = y x i) -> ml_scale b n K y s -> ml_scale b n K y' s.
Proof.
  intros Hy (q & (c & Hc & ->) & ->). eexists; split; [|reflexivity]. exists c. split.
  - intros x Hx i Hi. rewrite Hy by auto. apply Hc; auto.
  - apply rsum_ext; intros x Hx. apply dot_ext; auto. intros; symmetry; auto.
Qed.

Lemma c33_quadratic g it kw Kin T T' b n a s s' :
  (it <= 1)%nat -> noise_fits (gp_noise g) b n -> shape Kin = [b; n; n] ->
  univariate_shape T b n -> univariate_shape T' b n ->
  (forall x i, (x < b)%nat -> (i < n)%nat -> tgt T' x i = a * tgt T x i) ->
  analytic_scale_opt ls g it Kin T kw = Ok s ->
  analytic_scale_opt ls g it Kin T' kw = Ok s' ->
  s' = a * a * s.
Proof.
  intros Hit Hf HK HT HT' Ha E E'.
  destruct (c33_inv g it kw Kin T b n s Hit Hf HK HT E) as [Hns Hml].
  destruct (c33_inv g it kw Kin T' b n s' Hit Hf HK HT' E') as [_ Hml'].
  apply (ml_scale_unique b n (noisy (gp_noise g) Kin) (tgt T')); auto.
  apply (ml_scale_ext b n _ (fun x i => a * tgt T x i)); auto. apply ml_scale_quadratic; auto.
Qed.

Lemma c20_scale_perm g g' it kw Kin Kin' T T' b n p s s' :
  (it <= 1)%nat -> noise_fits (gp_noise g) b n -> noise_fits (gp_noise g') b n ->
  shape Kin = [b; n; n] -> univariate_shape T b n -> shape Kin' = [b; n; n] -> univariate_shape T' b n ->
  (forall x, (x < b)%nat -> perm_on n (p x)) ->
  (forall x i j, (x < b)%nat -> (i < n)%nat -> (j < n)%nat -> at_ Kin' [x; i; j] = at_ Kin [x; p x i; p x j]) ->
  (forall x i, (x < b)%nat -> (i < n)%nat -> noise_at (gp_noise g') None x i = noise_at (gp_noise g) None x (p x i)) ->
  (forall x i, (x < b)%nat -> (i < n)%nat -> tgt T' x i = tgt T x (p x i)) ->
  analytic_scale_opt ls g it Kin T kw = Ok s ->
  analytic_scale_opt ls g' it Kin' T' kw = Ok s' ->
  s = s'.
Proof.
  intros Hit Hf Hf' HK HT HK' HT' Hp HKp HN HTp E E'.
  destruct (c33_inv g it kw Kin T b n s Hit Hf HK HT E) as [Hns Hml].
  destruct (c33_inv g' it kw Kin' T' b n s' Hit Hf' HK' HT' E') as [Hns' Hml'].
  apply (ml_scale_unique b n (noisy (gp_noise g') Kin') (tgt T')); auto.
  apply (ml_scale_perm b n (noisy (gp_noise g) Kin) (noisy (gp_noise g') Kin') (tgt T) (tgt T') p); auto.
  intros x i j Hx Hi Hj. unfold noisy. rewrite <- (plus_diag_perm n (p x)) by auto.
  unfold plus_diag, rowmat. rewrite HKp, HN by auto. reflexivity.
Qed.

Lemma c34_refuted :
  exists g Kin T cand s s_cand,
    analytic_scale_opt ls g 1 Kin T (Some cand) = Ok s /\
    ml_scale 1 1 (fun x => plus_diag (rowmat Kin x) (noise_at (gp_noise g) (Some cand) x)) (tgt T) s_cand /\
    (forall x, (x < 1)%nat -> nonsingular 1 (plus_diag (rowmat Kin x) (noise_at (gp_noise g) (Some cand) x))) /\
    s <> s_cand.
Proof.
  pose (g := mkGp (HomoscedasticNoise 0) (AnalyticScale 1) 1 1 (mkNd [] (fun _ => 1))).
  pose (Kin := mkNd [1; 1; 1]%nat (fun _ => 1)). pose (T := mkNd [1; 1]%nat (fun _ => 1)).
  assert (HN : forall c, c <> -1 -> forall x, nonsingular 1 (plus_diag (rowmat Kin x) (fun _ => c))).
  { intros c Hc x y Hy j Hj. specialize (Hy O ltac:(lia)). replace j with O by lia.
    unfold plus_diag, rowmat in Hy. cbn in Hy.
    assert ((1 + c) * y O = 0) by lra. apply Rmult_integral in H as [H|H]; lra. }
  destruct (c33_formula g 1 (Some 1) Kin T 1 1) as (s & Es & Hs); auto; try lia; try exact I; try (left; reflexivity).
  { intros x Hx. apply (HN 0). lra. }
  exists g, Kin, T, 1, s, (1/2). split; auto. split; [|split].
  - exists (1/2). split; [|cbn; lra]. exists (fun _ _ => 1/2). split.
    + intros x Hx i Hi. unfold plus_diag, rowmat. replace i with O by lia. cbn. lra.
    + unfold dot. cbn. lra.
  - intros x Hx. apply (HN 1). lra.
  - assert (s = 1); [|lra].
    apply (ml_scale_unique 1 1 (noisy (gp_noise g) Kin) (tgt T)); auto.
    + intros x Hx. apply (HN 0). lra.
    + exists 1. split; [|cbn; lra]. exists (fun _ _ => 1). split.
      * intros x Hx i Hi. unfold noisy, plus_diag, rowmat. replace i with O by lia. cbn. lra.
      * unfold dot. cbn. lra.
Qed.

End T.
