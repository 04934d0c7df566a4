(** A three point data set on which the packaged workflow predicts the wrong number. *)
From Coq Require Import Lia Lra.
From Verif Require Import Base BaseFacts NdModel NdFacts RSum LinAlgModel LinAlgSpec LinAlgFacts
  GPModel NoiseModel MuyGPSModel MuyGPSProofs GPSpec GPTheorems FastProofs Gauss TensorModel TensorSpec TensorProofs
  FlowModel FlowSpec FlowProofs.
Local Open Scope R_scope.

(** Kernel of one feature: 2 at distance zero, 1 elsewhere. *)
Definition exk (v : nat -> R) : R := if Req_EM_T (v O) 0 then 2 else 1.
Definition exk_nd (d : nd R) : result (nd R) :=
  Ok (mkNd (removelast (shape d)) (fun idx => exk (fun f => at_ d (idx ++ [f])))).
(** Training points 0, 1, 2 with responses 3, 0, 0; test points 0 and 1. *)
Definition ex_train : nd R := mkNd [3; 1]%nat (fun idx => INR (hd O idx)).
Definition ex_test : nd R := mkNd [2; 1]%nat (fun idx => INR (hd O idx)).
Definition ex_targets : nd R := mkNd [3; 1]%nat (fun idx => if (hd O idx =? 0)%nat then 3 else 0).
Definition ex_q (c j : nat) : nat :=
  match c, j with O, O => 1 | O, _ => 2 | 1, O => 0 | 1, _ => 2 | _, O => 1 | _, _ => 0 end%nat.
Definition ex_nn : nd Z := mkNd [3; 2]%nat (fun idx => match idx with [c; j] => Z.of_nat (ex_q c j) | _ => 0%Z end).
Definition ex_p (x j : nat) : nat := match j with O => x | _ => ex_q x O end.
Definition ex_test_nn : nd Z := mkNd [2; 2]%nat (fun idx => match idx with [c; j] => Z.of_nat (ex_p c j) | _ => 0%Z end).
Definition ex_gp : gp := mkGp NullNoise (AnalyticScale 1) 1 1 (mkNd [] (fun _ => 2)).

Lemma exk_pointwise : pointwise_kernel 1 exk_nd exk.
Proof.
  split.
  - intros v v' H. unfold exk. rewrite H by lia. reflexivity.
  - intros d sh Hd. eexists. split; [reflexivity|]. cbn [shape at_]. rewrite Hd, removelast_last.
    split; [reflexivity|]. reflexivity.
Qed.

Lemma exk_cov_cases X Y i j : shape X <> [] -> shape X = shape X -> feature X i O = INR i -> feature Y j O = INR j ->
  kcov exk X Y i j = if (i =? j)%nat then 2 else 1.
Proof.
  intros _ _ HX HY. unfold kcov, exk. rewrite HX, HY. destruct (Req_EM_T _ 0) as [E|E].
  - destruct (Nat.eqb_spec i j); auto. exfalso. apply n. apply INR_eq. lra.
  - destruct (Nat.eqb_spec i j); auto. exfalso. apply E. subst. lra.
Qed.

Lemma exk_train i j : kcov exk ex_train ex_train i j = if (i =? j)%nat then 2 else 1.
Proof. apply exk_cov_cases; try reflexivity. discriminate. Qed.
Lemma exk_test i j : kcov exk ex_test ex_train i j = if (i =? j)%nat then 2 else 1.
Proof. apply exk_cov_cases; try reflexivity. discriminate. Qed.

Lemma ex_nn_ok : index_matrix ex_nn 3 2 3 ex_q.
Proof.
  split; [reflexivity|]. intros x j Hx Hj. split; [reflexivity|].
  destruct x as [|[|x]], j as [|j]; cbn; lia.
Qed.
Lemma ex_test_nn_ok : index_matrix ex_test_nn 2 2 3 ex_p.
Proof.
  split; [reflexivity|]. intros x j Hx Hj. split; [reflexivity|].
  destruct x as [|[|x]], j as [|j]; cbn; lia.
Qed.

Lemma ex_flow_ns q c : q c 0%nat <> q c 1%nat -> nonsingular 2 (nbr_matrix exk NullNoise ex_train q c).
Proof.
  intros Hne x Hx. pose proof (Hx O ltac:(lia)) as A. pose proof (Hx 1%nat ltac:(lia)) as B.
  assert (V : forall i j, nbr_matrix exk NullNoise ex_train q c i j = if (q c i =? q c j)%nat then 2 else 1).
  { intros i j. unfold nbr_matrix, plus_diag. rewrite exk_train. cbn [noise_at].
    destruct (i =? j)%nat; destruct (q c i =? q c j)%nat; ring. }
  cbn [rsum] in A, B. rewrite !V, !Nat.eqb_refl in A, B.
  assert (E1 : (q c 0%nat =? q c 1%nat)%nat = false) by (apply Nat.eqb_neq; auto).
  assert (E2 : (q c 1%nat =? q c 0%nat)%nat = false) by (apply Nat.eqb_neq; auto).
  rewrite E1 in A. rewrite E2 in B. intros j Hj. destruct j as [|[|j]]; [lra|lra|lia].
Qed.

Lemma ex_self_ne c : (c < 3)%nat -> with_self ex_q c 0 <> with_self ex_q c 1.
Proof. intros H. destruct c as [|[|[|c]]]; cbn; lia. Qed.

(** Test point 0 coincides with training point 0, whose response is 3, and there is no noise. *)
Lemma flow_refuted : exists ls, exact_solver ls /\ exists out single,
  fast_posterior_mean_any ls ex_gp exk_nd ex_nn ex_test_nn ex_test ex_train ex_targets = Ok out /\
  at_ out [0%nat] = 2 /\
  manual_fast_workflow ls ex_gp exk_nd ex_nn (fast_nn_update ex_nn) ex_test_nn ex_test ex_train ex_targets = Ok single /\
  at_ single [0%nat] = 3 /\
  kriging 2 (nbr_matrix exk NullNoise ex_train (with_self ex_q) 0)
    (fun j => kcov exk ex_test ex_train 0 (with_self ex_q 0 j))
    (fun j => at_ ex_targets [with_self ex_q 0 j; O]) 3.
Proof.
  exists gauss. split; [exact gauss_exact|].
  destruct (any_value gauss gauss_exact ex_gp 1 exk_nd exk ex_nn ex_test_nn ex_test ex_train ex_targets 3 2 1 1 ex_q ex_p 1)
    as (out & coef & E & _ & Hc & Ho); try reflexivity; try lia; try exact I.
  { exact exk_pointwise. } { right. exists 1%nat. reflexivity. } { exact ex_nn_ok. } { exact ex_test_nn_ok. }
  { intros c Hc. apply ex_flow_ns. apply ex_self_ne; auto. }
  destruct (manual_kriging gauss gauss_exact ex_gp 1 exk_nd exk ex_nn ex_test_nn ex_test ex_train ex_targets 3 2 1 1 ex_q ex_p 1)
    as (single & Es & _ & Hk); try reflexivity; try lia; try exact I.
  { exact exk_pointwise. } { right. exists 1%nat. reflexivity. } { right. exists 1%nat. reflexivity. }
  { exact ex_nn_ok. } { exact ex_test_nn_ok. }
  { intros i j. rewrite !exk_train, (Nat.eqb_sym j i). reflexivity. }
  { intros c Hc'. apply ex_flow_ns. apply ex_self_ne; auto. }
  exists out, single. split; [exact E|]. split.
  { specialize (Ho O O ltac:(lia) ltac:(lia)). change (out_idx 1 0 0) with [0%nat] in Ho. rewrite Ho.
    specialize (Hc O O ltac:(lia) ltac:(lia)).
    pose proof (Hc O ltac:(lia)) as A. pose proof (Hc 1%nat ltac:(lia)) as B.
    unfold nbr_matrix, plus_diag in A, B. cbn [rsum Nat.eqb noise_at ex_gp gp_noise with_self ex_q ex_p] in A, B |- *.
    rewrite !exk_train in A, B. rewrite !exk_test. cbn in A, B |- *. lra. }
  split; [exact Es|].
  specialize (Hk O O ltac:(lia) ltac:(lia)). change (out_idx 1 0 0) with [0%nat] in Hk.
  assert (H3 : at_ single [0%nat] = 3).
  { destruct Hk as (wv & Hw & ->).
    pose proof (Hw O ltac:(lia)) as A. pose proof (Hw 1%nat ltac:(lia)) as B.
    unfold nbr_matrix, plus_diag in A, B. unfold dot. cbn [rsum Nat.eqb noise_at ex_gp gp_noise with_self ex_q ex_p] in A, B |- *.
    rewrite !exk_train in A, B. rewrite !exk_test in A, B. cbn in A, B |- *. lra. }
  split; [exact H3|]. rewrite <- H3. exact Hk.
Qed.

(** In the packaged workflow position 1 of the prediction set is always the closest training
    row itself, while coefficient 1 belongs to that row's first neighbour. *)
Lemma flow_positions q c : with_self (with_self q) c 1 = c /\ with_self q c 1 = q c O.
Proof. split; reflexivity. Qed.

(** What the docstring workflow (update first, then make_fast_predict_tensors, which updates
    again) computes. *)
Lemma doc_value ls g F kern k nn test_nn test train targets N M w w' q p r :
  exact_solver ls ->
  pointwise_kernel F kern k -> dataset test M -> dataset train N -> ndim test = ndim train ->
  feature_count test = F -> feature_count train = F -> shape targets = [N; r] ->
  index_matrix nn N (S w) N q -> index_matrix test_nn M (S w') N p ->
  N <> 1%nat -> M <> 1%nat -> (S w <> 1)%nat -> noise_fits (gp_noise g) N (S w) ->
  (forall c, (c < N)%nat -> nonsingular (S w) (nbr_matrix k (gp_noise g) train (with_self (with_self q)) c)) ->
  exists out coef, manual_fast_workflow ls g kern (fast_nn_update nn) (fast_nn_update nn) test_nn test train targets = Ok out /\
    shape out = (if (r =? 1)%nat then [M] else [M; r]) /\
    (forall c s, (c < N)%nat -> (s < r)%nat ->
       solves (S w) (nbr_matrix k (gp_noise g) train (with_self (with_self q)) c) (fun j => coef c j s)
              (fun j => at_ targets [with_self (with_self q) c j; s])) /\
    (forall x s, (x < M)%nat -> (s < r)%nat -> at_ out (out_idx r x s) =
       rsum (S w) (fun j => kcov k test train x (with_self q (p x O) j) * coef (p x O) j s)).
Proof.
  intros Hls Hk Hd Hd' Hnd HF HF' HT Hnn Htnn HN HM Hw Hf Hns.
  pose proof (update_matrix nn N w N q Hnn ltac:(lia)) as H1.
  eapply (manual_value ls Hls g F kern k (fast_nn_update nn) (fast_nn_update nn) test_nn test train targets N M w w'
     (with_self q) (with_self q) p r); eauto.
Qed.

(** The doubly updated neighbourhood lists the row twice: without noise its kernel matrix is
    singular, so the docstring workflow raises. *)
Lemma doc_singular k train q c w m : (forall i, (i < S (S w))%nat -> noise_at m None c i = 0) ->
  ~ nonsingular (S (S w)) (nbr_matrix k m train (with_self (with_self q)) c).
Proof.
  intros Hm H. specialize (H (fun j => match j with O => 1 | S O => -1 | _ => 0 end)).
  assert (1 = 0); [|lra]. apply (H) with (j := O); [|lia].
  intros i Hi. unfold nbr_matrix, plus_diag.
  rewrite (rsum_ext _ _ (fun j => (kcov k train train (with_self (with_self q) c i) (with_self (with_self q) c j)) *
     match j with O => 1 | S O => -1 | _ => 0 end)).
  2: { intros j Hj. rewrite Hm by auto. destruct (i =? j)%nat; ring. }
  rewrite rsum_S_l, rsum_S_l. cbn [with_self]. rewrite (rsum_ext _ _ (fun _ => 0)) by (intros; ring).
  rewrite rsum_0. ring.
Qed.

(** Without noise the docstring workflow raises LinAlgError on every non-empty data set. *)
Lemma doc_raises ls g F kern k nn test_nn test train targets N w q r :
  exact_solver ls -> gp_noise g = NullNoise ->
  pointwise_kernel F kern k -> dataset train N -> feature_count train = F -> shape targets = [N; r] ->
  index_matrix nn N (S (S w)) N q -> (0 < N)%nat ->
  manual_fast_workflow ls g kern (fast_nn_update nn) (fast_nn_update nn) test_nn test train targets = Err LinAlgError.
Proof.
  intros Hls Hg Hk Hd HF HT Hnn HN.
  pose proof (update_matrix nn N (S w) N q Hnn ltac:(lia)) as H1.
  pose proof (update_matrix _ N (S w) N _ H1 ltac:(lia)) as H2.
  destruct (target_tensor targets _ N N _ _ r HT H2) as (T & ET & ST & HTv).
  destruct (pairwise_kernel F kern k train _ N N _ _ Hk Hd HF H2) as (pw & Kin & Epw & EK & SK & HKv).
  unfold manual_fast_workflow. rewrite (make_fast_ok (fast_nn_update nn) train targets N (S (S w))) by (try exact (proj1 H1); auto).
  rewrite Epw; cbn [bind]. rewrite ET; cbn [bind].
  rewrite EK; cbn [bind]. unfold gp_fast_coefficients. rewrite Hg. cbn [perturb bind].
  unfold fast_precompute, ndim. rewrite ST. cbn [List.length Nat.eqb].
  rewrite (np_solve_singular ls Kin T [N] (S (S w)) r [O]); auto.
  - apply inb1; auto.
  - destruct (ls (S (S w)) r (slice2 Kin [O]) (slice2 T [O])) as [X|] eqn:E; [exfalso|reflexivity].
    apply (doc_singular k train q O w NullNoise); [reflexivity|].
    apply (nonsingular_ext _ (slice2 Kin [O])).
    + intros i j Hi Hj. unfold slice2, nbr_matrix, plus_diag. cbn [app noise_at]. rewrite HKv by auto.
      destruct (i =? j)%nat; ring.
    + apply (proj2 Hls (S (S w)) r (slice2 Kin [O]) (slice2 T [O])). eauto.
Qed.

(** Posterior variance from indices. *)
Lemma from_indices_variance ls g F kern k ix nn test train (targets : nd R) N M t w q c r :
  exact_solver ls ->
  pointwise_kernel F kern k -> dataset test M -> dataset train N -> ndim test = ndim train ->
  feature_count test = F -> feature_count train = F -> shape targets = [N; r] -> shape (gp_Kout g) = [] ->
  shape ix = [t] -> (forall x, (x < t)%nat -> at_ ix [x] = Z.of_nat (c x) /\ (c x < M)%nat) ->
  index_matrix nn t w N q -> noise_fits (gp_noise g) t w ->
  (forall x, (x < t)%nat -> nonsingular w (nbr_matrix k (gp_noise g) train q x)) ->
  exists out, posterior_variance_from_indices ls g kern ix nn test train targets = Ok out /\ shape out = [t] /\
    forall x, (x < t)%nat -> exists wv,
      solves w (nbr_matrix k (gp_noise g) train q x) wv (fun j => kcov k test train (c x) (q x j)) /\
      at_ out [x] = gp_var_scale g *
        (at_ (gp_Kout g) [] - dot w wv (fun j => kcov k test train (c x) (q x j))).
Proof.
  intros Hls Hk Hd Hd' Hnd HF HF' HT HO Hix Hc Hnn Hf Hns.
  destruct (crosswise_kernel F kern k test train ix nn M N t w c q) as (cw & Kc & Ecw & EKc & SKc & HKc); auto.
  destruct (pairwise_kernel F kern k train nn N t w q Hk Hd' HF' Hnn) as (pw & Kin & Epw & EK & SK & HKv).
  destruct (target_tensor targets nn N t w q r HT Hnn) as (T & ET & ST & HTv).
  assert (HKx : forall x, (x < t)%nat -> forall i j, (i < w)%nat -> (j < w)%nat ->
     plus_diag (rowmat Kin x) (noise_at (gp_noise g) None x) i j = nbr_matrix k (gp_noise g) train q x i j).
  { intros x Hx i j Hi Hj. unfold nbr_matrix, plus_diag, rowmat. rewrite HKv; auto. }
  destruct (gp_var_total ls Hls (gp_noise g) None Kin Kc (gp_Kout g) t w Hf SK SKc HO) as (v & Ev).
  { intros x Hx. apply (nonsingular_ext w (nbr_matrix k (gp_noise g) train q x)); auto.
    intros; symmetry; apply HKx; auto. }
  destruct (gp_var_inv ls Hls (gp_noise g) None Kin Kc (gp_Kout g) t w v Hf SK SKc HO Ev) as [Sv Hv].
  exists (ndmap (Rmult (gp_var_scale g)) v). split.
  { unfold posterior_variance_from_indices. rewrite Ecw, Epw, ET; cbn [bind]. rewrite EK, EKc; cbn [bind].
    unfold gp_posterior_variance, gp_opt_variance. rewrite Ev. reflexivity. }
  split; [exact Sv|]. intros x Hx. destruct (Hv x Hx) as (_ & wv & Hw & Hval). exists wv. split.
  - apply (solves_ext w (plus_diag (rowmat Kin x) (noise_at (gp_noise g) None x))); [apply HKx; auto|].
    intros i Hi. etransitivity; [exact (Hw i Hi)|]. unfold rowvec. apply HKc; auto.
  - cbn [ndmap at_]. rewrite Hval. f_equal. f_equal. unfold dot, rowvec.
    apply rsum_ext. intros j Hj. rewrite HKc; auto.
Qed.
