(** Proofs for predictions with the library's own kernels. *)
From Coq Require Import Lia Lra.
From Verif Require Import Base BaseFacts NdModel NdFacts RSum HyperModel NamedModel NamedSpec TensorModel TensorSpec TensorProofs
  KernelModel KernelSpec KernelProofs KernelLemmas KernelPd LinAlgModel LinAlgSpec LinAlgFacts GPModel NoiseModel MuyGPSModel GPSpec
  GPTheorems WellPosedProofs FlowModel FlowSpec FlowProofs FlowLemmas PointwiseSpec PointwiseProofs LibSpec GaussPd.
Local Open Scope R_scope.

Section Lib.
Variables (gamma : R -> R) (kv : R -> R -> R).

Lemma lk_pointwise K F cur kw : lk_ok K F cur kw -> pointwise_kernel F (lk_call gamma kv K cur kw) (lk_cov gamma kv K F cur kw).
Proof.
  intros (OK & HF & POS & M). destruct K as [d|d sm p]; cbn [lk_call lk_cov lk_def] in *.
  - apply rbf_pointwise; auto.
  - destruct M as (M & N & _). apply matern_pointwise; auto.
Qed.

(** Covariances of a family of points given by (data set, row) pairs. *)
Definition scaled_pt (K : libkernel) (cur : nat -> R) (kw : dict R) (pt : nat -> nat -> R) (i f : nat) : R :=
  pt i f / scale_of (lk_def K) cur kw f.
Lemma lk_cov_points K F cur kw (pt : nat -> nat -> R) i j : 
  lk_cov gamma kv K F cur kw (fun f => pt i f - pt j f) =
  match K with
  | LRbf d => exp (- sqdist F (scaled_pt K cur kw pt i) (scaled_pt K cur kw pt j) / 2)
  | LMatern d sm p => matern_value gamma kv (formula_for p) (kw_or kw "smoothness" (cur (nm_loc sm)))
      (sqrt (sqdist F (scaled_pt K cur kw pt i) (scaled_pt K cur kw pt j)))
  end.
Proof.
  assert (E : scaled_sqdist F (scale_of (lk_def K) cur kw) (fun f => pt i f - pt j f) (fun _ => 0) =
              sqdist F (scaled_pt K cur kw pt i) (scaled_pt K cur kw pt j)).
  { unfold scaled_sqdist, sqdist, scaled_pt. apply rsum_ext. intros f Hf. f_equal. unfold Rdiv. ring. }
  destruct K as [d|d sm p]; cbn [lk_cov lk_def] in *; [unfold rbf_cov|unfold matern_cov]; rewrite E; reflexivity.
Qed.
Lemma lk_cov_psd K F cur kw (pt : nat -> nat -> R) n : lk_ok K F cur kw ->
  psd n (fun i j => lk_cov gamma kv K F cur kw (fun f => pt i f - pt j f)).
Proof.
  intros (_ & _ & _ & M). eapply psd_ext; [intros i j _ _; symmetry; apply lk_cov_points|].
  destruct K as [d|d sm p]; [apply gauss_gram_psd|]. apply matern_points_psd. apply M.
Qed.
Lemma lk_cov_pd K F cur kw (pt : nat -> nat -> R) n : lk_ok K F cur kw ->
  (forall i j, (i < n)%nat -> (j < n)%nat -> i <> j -> exists f, (f < F)%nat /\ pt i f <> pt j f) ->
  pd n (fun i j => lk_cov gamma kv K F cur kw (fun f => pt i f - pt j f)).
Proof.
  intros (_ & _ & POS & M) DI. eapply pd_ext; [intros i j _ _; symmetry; apply lk_cov_points|].
  assert (SEP : separated F n (scaled_pt K cur kw pt)).
  { intros i j Hi Hj Hij. destruct (DI i j Hi Hj Hij) as (f & Hf & N). apply (sqdist_pos _ _ _ f Hf).
    pose proof (POS f Hf). unfold scaled_pt. intros E. apply N.
    apply (Rmult_eq_reg_r (/ scale_of (lk_def K) cur kw f)); [exact E|]. apply Rinv_neq_0_compat. lra. }
  destruct K as [d|d sm p]; [apply gauss_gram_pd; exact SEP|]. apply matern_points_pd; [apply M|exact SEP].
Qed.
Lemma lk_cov_0 K F cur kw (pt : nat -> nat -> R) i : lk_ok K F cur kw -> lk_cov gamma kv K F cur kw (fun f => pt i f - pt i f) = 1.
Proof.
  intros (_ & _ & _ & M). rewrite lk_cov_points. rewrite sqdist_refl. destruct K as [d|d sm p].
  - replace (- 0 / 2) with 0 by field. apply exp_0.
  - rewrite sqrt_0. apply matern_at_0. apply M.
Qed.
Lemma lk_cov_sym K F cur kw X i j : kcov (lk_cov gamma kv K F cur kw) X X i j = kcov (lk_cov gamma kv K F cur kw) X X j i.
Proof. destruct K as [d|d sm p]; cbn [lk_cov]; [apply rbf_kcov_sym|apply matern_kcov_sym]. Qed.

(** Neighbour matrices are positive definite: with positive noise always, without noise on distinct points. *)
Lemma plus_diag_pd' n A d : pd n A -> (forall i, (i < n)%nat -> 0 <= d i) -> pd n (plus_diag A d).
Proof.
  intros P D x Hx. specialize (P x Hx).
  assert (E : quad n (plus_diag A d) x = quad n A x + rsum n (fun i => d i * (x i * x i))).
  { rewrite <- quad_diag, <- quad_plus. apply quad_ext; auto. intros i j _ _. unfold plus_diag, delta. destruct (Nat.eqb i j); ring. }
  rewrite E. assert (0 <= rsum n (fun i => d i * (x i * x i))). { apply rsum_nonneg. intros i Hi. specialize (D i Hi). nra. }
  lra.
Qed.
Lemma lk_nbr_ns K F cur kw m X q w x : lk_ok K F cur kw ->
  (forall i, (i < w)%nat -> 0 < noise_at m None x i) ->
  nonsingular w (nbr_matrix (lk_cov gamma kv K F cur kw) m X q x).
Proof.
  intros OK N. apply pd_nonsingular. unfold nbr_matrix. apply plus_diag_pd; auto.
  apply (lk_cov_psd K F cur kw (fun i f => feature X (q x i) f) w OK).
Qed.
Lemma lk_nbr_ns_distinct K cur kw m X q w x : lk_ok K (feature_count X) cur kw ->
  (forall i, (i < w)%nat -> 0 <= noise_at m None x i) -> distinct_rows X w (q x) ->
  nonsingular w (nbr_matrix (lk_cov gamma kv K (feature_count X) cur kw) m X q x).
Proof.
  intros OK N D. apply pd_nonsingular. unfold nbr_matrix. apply plus_diag_pd'; auto.
  apply (lk_cov_pd K (feature_count X) cur kw (fun i f => feature X (q x i) f) w OK). auto.
Qed.

(** ** Prediction from indices *)
Section Predict.
Variables (ls : lsolver).
Hypothesis EX : exact_solver ls.

Lemma well_posed_ns K cur kw m X t w q : lk_ok K (feature_count X) cur kw -> well_posed m X t w q ->
  forall x, (x < t)%nat -> nonsingular w (nbr_matrix (lk_cov gamma kv K (feature_count X) cur kw) m X q x).
Proof.
  intros OK WP x Hx. destruct (WP x Hx) as [P|[P D]]; [apply lk_nbr_ns; auto|apply lk_nbr_ns_distinct; auto].
Qed.

Lemma lib_mean g K cur kw ix nn test train targets N M t w q c r :
  lk_ok K (feature_count train) cur kw -> dataset test M -> dataset train N -> ndim test = ndim train ->
  feature_count test = feature_count train -> shape targets = [N; r] ->
  shape ix = [t] -> (forall x, (x < t)%nat -> at_ ix [x] = Z.of_nat (c x) /\ (c x < M)%nat) ->
  index_matrix nn t w N q -> r <> w -> noise_fits (gp_noise g) t w -> well_posed (gp_noise g) train t w q ->
  exists out, posterior_mean_from_indices ls g (lk_call gamma kv K cur kw) ix nn test train targets = Ok out /\ shape out = [t; r] /\
    forall x s, (x < t)%nat -> (s < r)%nat ->
      kriging w (nbr_matrix (lk_cov gamma kv K (feature_count train) cur kw) (gp_noise g) train q x)
        (fun j => kcov (lk_cov gamma kv K (feature_count train) cur kw) test train (c x) (q x j))
        (fun j => at_ targets [q x j; s]) (at_ out [x; s]).
Proof.
  intros OK D1 D2 ND FC ST SI CI NN RW NF WP.
  apply (from_indices_kriging ls EX g (feature_count train) (lk_call gamma kv K cur kw) _ ix nn test train targets N M t w q c r);
    auto; [apply lk_pointwise; auto|apply well_posed_ns; auto].
Qed.

Lemma kriging_bounds K F cur kw w m train test q x c wv :
  lk_ok K F cur kw -> (forall i, (i < w)%nat -> 0 <= noise_at m None x i) ->
  solves w (nbr_matrix (lk_cov gamma kv K F cur kw) m train q x) wv (fun j => kcov (lk_cov gamma kv K F cur kw) test train c (q x j)) ->
  0 <= 1 - dot w wv (fun j => kcov (lk_cov gamma kv K F cur kw) test train c (q x j)) <= 1.
Proof.
  intros OK N SOL.
  apply (c21_bounds w (fun i j => kcov (lk_cov gamma kv K F cur kw) train train (q x i) (q x j)) (noise_at m None x)
           (fun j => kcov (lk_cov gamma kv K F cur kw) test train c (q x j)) 1 wv _); auto.
  set (pt := fun i f => match i with O => feature test c f | S i' => feature train (q x i') f end).
  eapply psd_ext; [|apply (lk_cov_psd K F cur kw pt (S w) OK)].
  intros i j Hi Hj. cbn beta. destruct i as [|i], j as [|j]; cbn [joint].
  - apply lk_cov_0; auto.
  - reflexivity.
  - destruct OK as (_ & _ & _ & _). rewrite !lk_cov_points. rewrite (sqdist_sym F).
    unfold kcov. pose proof (lk_cov_points K F cur kw pt O (S i)) as E. cbn [pt] in E. rewrite E. reflexivity.
  - reflexivity.
Qed.

Lemma lib_variance g K cur kw ix nn test train (targets : nd R) N M t w q c r :
  lk_ok K (feature_count train) cur kw -> dataset test M -> dataset train N -> ndim test = ndim train ->
  feature_count test = feature_count train -> shape targets = [N; r] ->
  shape (gp_Kout g) = [] -> at_ (gp_Kout g) [] = 1 -> 0 <= gp_var_scale g ->
  shape ix = [t] -> (forall x, (x < t)%nat -> at_ ix [x] = Z.of_nat (c x) /\ (c x < M)%nat) ->
  index_matrix nn t w N q -> noise_fits (gp_noise g) t w -> well_posed (gp_noise g) train t w q ->
  exists out, posterior_variance_from_indices ls g (lk_call gamma kv K cur kw) ix nn test train targets = Ok out /\ shape out = [t] /\
    forall x, (x < t)%nat -> (exists wv,
      solves w (nbr_matrix (lk_cov gamma kv K (feature_count train) cur kw) (gp_noise g) train q x) wv
        (fun j => kcov (lk_cov gamma kv K (feature_count train) cur kw) test train (c x) (q x j)) /\
      at_ out [x] = gp_var_scale g *
        (1 - dot w wv (fun j => kcov (lk_cov gamma kv K (feature_count train) cur kw) test train (c x) (q x j)))) /\
      0 <= at_ out [x] <= gp_var_scale g.
Proof.
  intros OK D1 D2 ND FC ST SK K1 SC SI CI NN NF WP.
  destruct (from_indices_variance ls g (feature_count train) (lk_call gamma kv K cur kw) _ ix nn test train targets N M t w q c r EX
      (lk_pointwise K _ cur kw OK) D1 D2 ND FC eq_refl ST SK SI CI NN NF (well_posed_ns K cur kw (gp_noise g) train t w q OK WP))
    as (out & E & S & V).
  exists out. split; [exact E|]. split; [exact S|]. intros x Hx. destruct (V x Hx) as (wv & W1 & W2). rewrite K1 in W2.
  split; [exists wv; split; auto|]. rewrite W2.
  assert (N0 : forall i, (i < w)%nat -> 0 <= noise_at (gp_noise g) None x i).
  { destruct (WP x Hx) as [P|[P _]]; auto. intros i Hi. left. auto. }
  destruct (kriging_bounds K _ cur kw w (gp_noise g) train test q x (c x) wv OK N0 W1) as [B1 B2].
  split; [apply Rmult_le_pos; auto|]. rewrite <- (Rmult_1_r (gp_var_scale g)) at 2. apply Rmult_le_compat_l; auto.
Qed.

(** Interpolation: without noise, at a test point that coincides with one of its (distinct) neighbours. *)
Lemma solves_unit n A k j : nonsingular n A -> (j < n)%nat -> (forall i, (i < n)%nat -> k i = A i j) ->
  forall w, solves n A w k -> forall i, (i < n)%nat -> w i = delta i j.
Proof.
  intros NS Hj E w S. apply (solves_unique n A w (fun i => delta i j) k NS S).
  intros i Hi. rewrite E by auto. rewrite (rsum_ext n _ (fun l => delta l j * A i l)) by (intros; ring).
  apply rsum_delta; auto.
Qed.
Lemma lib_interpolates g K cur kw ix nn test train targets N M t w q c r :
  lk_ok K (feature_count train) cur kw -> dataset test M -> dataset train N -> ndim test = ndim train ->
  feature_count test = feature_count train -> shape targets = [N; r] ->
  shape ix = [t] -> (forall x, (x < t)%nat -> at_ ix [x] = Z.of_nat (c x) /\ (c x < M)%nat) ->
  index_matrix nn t w N q -> r <> w -> gp_noise g = NullNoise ->
  (forall x, (x < t)%nat -> distinct_rows train w (q x)) ->
  exists out, posterior_mean_from_indices ls g (lk_call gamma kv K cur kw) ix nn test train targets = Ok out /\ shape out = [t; r] /\
    forall x s j, (x < t)%nat -> (s < r)%nat -> (j < w)%nat ->
      (forall f, (f < feature_count train)%nat -> feature test (c x) f = feature train (q x j) f) ->
      at_ out [x; s] = at_ targets [q x j; s].
Proof.
  intros OK D1 D2 ND FC ST SI CI NN RW NU DI.
  assert (WP : well_posed (gp_noise g) train t w q).
  { intros x Hx. right. rewrite NU. split; [intros; cbn; lra|auto]. }
  destruct (lib_mean g K cur kw ix nn test train targets N M t w q c r OK D1 D2 ND FC ST SI CI NN RW) as (out & E & S & V); auto.
  { rewrite NU. exact I. }
  exists out. split; auto. split; auto. intros x s j Hx Hs Hj EQ. destruct (V x s Hx Hs) as (wv & W1 & W2). rewrite W2.
  pose proof (well_posed_ns K cur kw (gp_noise g) train t w q OK WP x Hx) as NS.
  assert (U : forall i, (i < w)%nat -> wv i = delta i j).
  { apply (solves_unit w _ (fun j => kcov (lk_cov gamma kv K (feature_count train) cur kw) test train (c x) (q x j)) j NS Hj); auto.
    intros i Hi. unfold nbr_matrix, plus_diag. rewrite NU. cbn [noise_at].
    replace (if (i =? j)%nat then 0 else 0) with 0 by (destruct (i =? j)%nat; reflexivity). rewrite Rplus_0_r.
    rewrite lk_cov_sym. unfold kcov. apply (proj1 (lk_pointwise K (feature_count train) cur kw OK)). intros f Hf. rewrite EQ by auto. reflexivity. }
  unfold dot. rewrite (rsum_ext w _ (fun i => delta i j * at_ targets [q x i; s])) by (intros i Hi; rewrite U by auto; ring).
  apply (rsum_delta w j (fun i => at_ targets [q x i; s])). auto.
Qed.
End Predict.
End Lib.
