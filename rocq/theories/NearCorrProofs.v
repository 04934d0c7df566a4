(** Lemmas for C126. *)
From Coq Require Import Lia Lra.
From Verif Require Import Base BaseFacts NdModel NdFacts RSum HyperModel NamedModel NamedSpec LinAlgModel LinAlgSpec LinAlgFacts Gauss
  GPModel NoiseModel MuyGPSModel GPSpec GPTheorems WellPosedProofs TensorModel TensorSpec TensorProofs KernelModel KernelSpec KernelProofs KernelCases
  NeighborsModel NeighborsSpec NeighborsProofs FlowModel FlowSpec FlowProofs PointwiseSpec LibSpec LibProofs
  MultiModel DriverModel WorkModel WorkSpec WorkProofs WorkLemmas BestSpec BestProofs FarSpec FarProofs SmoothSpec SmoothProofs SimplerSpec.
Local Open Scope R_scope.

Section NearCorr.
Variable gamma : R -> R.
Variable kv : R -> R -> R.

Lemma corr_mono f : correlation f -> forall d d', 0 <= d <= d' -> f d' <= f d.
Proof. intros (_ & _ & _ & D) d d' [H0 [H1|<-]]; [left; apply D; assumption|apply Rle_refl]. Qed.

Lemma equal_scales_dist F l L test train x a : 0 < L -> (forall f, (f < F)%nat -> l f = L) -> F = feature_count train ->
  sdist F l (fun f => feature test x f - feature train a f) = sqrt (row_dist test train x a / L ^ 2).
Proof.
  intros L0 HL HF. unfold sdist, scaled_sqdist. f_equal. unfold row_dist, sqdist, Rdiv. rewrite <- rsum_scal_r. subst F. apply rsum_ext.
  intros f Hf. rewrite (HL f Hf). field. lra.
Qed.

(** With equal length scales the nearer of two rows is the more correlated. *)
Lemma nearer_corr K cur test train x a b L : lk_ok K (feature_count train) cur [] ->
  (forall f, (f < feature_count train)%nat -> scale_of (lk_def K) cur [] f = L) ->
  row_dist test train x a <= row_dist test train x b ->
  kcov (lk_cov gamma kv K (feature_count train) cur []) test train x b <= kcov (lk_cov gamma kv K (feature_count train) cur []) test train x a.
Proof.
  intros OK HL D.
  assert (L0 : 0 < L).
  { destruct OK as (_ & HF & POS & _). rewrite <- (HL O HF). apply POS. exact HF. }
  unfold kcov. destruct (lk_value_same gamma kv K (feature_count train) cur []) as (f & nu & E & G). specialize (G OK). rewrite !E.
  rewrite !(equal_scales_dist _ _ L _ _ _ _ L0 HL eq_refl).
  apply corr_mono; [apply matern_value_corr; exact G|]. split; [apply sqrt_pos|]. apply sqrt_le_1_alt. unfold Rdiv.
  apply Rmult_le_compat_r; [left; apply Rinv_0_lt_compat, pow_lt, L0|exact D].
Qed.

Lemma error_single K cur m test train x n q c : lk_ok K (feature_count train) cur [] -> (0 < n)%nat ->
  let k := lk_cov gamma kv K (feature_count train) cur [] in
  error_variance k m test train x n q (fun j => c * delta j 0) = 1 - 2 * c * kcov k test train x (q 0%nat) + c ^ 2 * (1 + noise_at m None x 0).
Proof.
  intros OK Hn k. unfold error_variance.
  rewrite (rsum_ext n _ (fun j => delta j 0 * (c * kcov k test train x (q j)))) by (intros; ring).
  rewrite (rsum_delta n 0 (fun j => c * kcov k test train x (q j))) by exact Hn.
  rewrite (rsum_ext n _ (fun i => delta i 0 * rsum n (fun j => delta j 0 * (c ^ 2 * obs_cov k m train x q i j)))).
  2:{ intros i Hi. rewrite <- rsum_scal. apply rsum_ext. intros; ring. }
  rewrite (rsum_delta n 0 (fun i => rsum n (fun j => delta j 0 * (c ^ 2 * obs_cov k m train x q i j)))) by exact Hn.
  rewrite (rsum_delta n 0 (fun j => c ^ 2 * obs_cov k m train x q 0 j)) by exact Hn.
  unfold obs_cov, kcov, k. cbn [Nat.eqb].
  rewrite (lk_cov_0 gamma kv K _ cur [] (feature test) x OK), (lk_cov_0 gamma kv K _ cur [] (feature train) (q 0%nat) OK). ring.
Qed.

Variable ls : lsolver.
Hypothesis EX : exact_solver ls.
Variable knn : dict nnval -> list point -> point -> nat -> list (nat * R).
Variable hnsw : nnval -> list point -> point -> nat -> list (nat * R).
Variable dist : dict nnval -> point -> point -> R.
Hypothesis SK : sklearn_ok knn dist.

Lemma most_correlated en method kw w g K cur test train targets N M n ex L :
  regression en method kw w test train targets N M n ex -> documented g K cur [] train N M n ->
  (forall f, (f < feature_count train)%nat -> scale_of (lk_def K) cur [] f = L) ->
  exists mean var q u,
    regress_any ls knn hnsw (Univariate (lib_model gamma kv g K cur)) test train w targets = Ok (mean, var) /\
    forall x, (x < M)%nat -> nearest_rows test train N x n (q x) /\
      let rho := kcov (lk_cov gamma kv K (feature_count train) cur []) test train x in
      (forall e, inb ex e -> at_ mean (x :: e) = rsum n (fun j => u x j * at_ targets (q x j :: e))) /\
      (forall i j, (i <= j)%nat -> (j < n)%nat -> rho (q x j) <= rho (q x i)) /\
      (forall a, (a < N)%nat -> (forall j, (j < n)%nat -> q x j <> a) -> forall j, (j < n)%nat -> rho a <= rho (q x j)) /\
      (forall a c, (a < N)%nat -> at_ var [x] <= gp_var_scale g * (1 - 2 * c * rho a + c ^ 2 * (1 + noise_at (gp_noise g) None x 0))) /\
      (n = 1%nat -> at_ var [x] = gp_var_scale g * (1 - rho (q x 0%nat) ^ 2 / (1 + noise_at (gp_noise g) None x 0))).
Proof.
  intros (Hm & He & Hw & Hn & D1 & D2 & ND & FC & HT & NC) (OK & SKo & K1 & SC & NF & SN) HL.
  destruct (best_linear gamma kv ls EX knn hnsw dist SK en method kw w g K cur test train targets N M n ex) as (mean & var & q & u & E & V); auto.
  exists mean, var, q, u. split; [exact E|]. intros x Hx. destruct (V x Hx) as (NR & MU & VA & OPT). split; [exact NR|]. intros rho.
  assert (N0 : 0 <= noise_at (gp_noise g) None x 0) by (destruct SN as [P|[P _]]; [left|]; apply P; lia).
  destruct NR as (QB & QI & SO & OUT).
  assert (NEAR : forall a b, row_dist test train x a <= row_dist test train x b -> rho b <= rho a)
    by (intros a b D; apply (nearer_corr K cur test train x a b L OK HL D)).
  assert (ALL : forall a, (a < N)%nat -> rho a <= rho (q x 0%nat)).
  { intros a Ha. apply NEAR. destruct (list_in_dec n (q x) a) as [(i & Hi & <-)|NI]; [apply (SO 0%nat i); lia|apply (OUT a Ha NI 0%nat); lia]. }
  assert (PO : forall a, 0 <= rho a) by (intros a; apply (lk_le_1 gamma kv K _ cur _ OK)).
  set (s := 1 + noise_at (gp_noise g) None x 0) in *. assert (S0 : 0 < s) by (unfold s; lra).
  assert (SQ : forall r c, 1 - r ^ 2 / s <= 1 - 2 * c * r + c ^ 2 * s).
  { intros r c. assert (EQ : 1 - 2 * c * r + c ^ 2 * s - (1 - r ^ 2 / s) = s * (c - r / s) ^ 2) by (field; lra).
    pose proof (Rmult_le_pos s ((c - r / s) ^ 2) (Rlt_le _ _ S0) (pow2_ge_0 _)). lra. }
  assert (ES : forall c, error_variance (lk_cov gamma kv K (feature_count train) cur []) (gp_noise g) test train x n (q x) (fun j => c * delta j 0) =
    1 - 2 * c * rho (q x 0%nat) + c ^ 2 * s) by (intros c; apply (error_single K cur (gp_noise g) test train x n (q x) c OK); lia).
  assert (MIN : at_ var [x] <= gp_var_scale g * (1 - rho (q x 0%nat) ^ 2 / s)).
  { rewrite VA. apply Rmult_le_compat_l; [exact SC|]. eapply Rle_trans; [apply (proj1 (OPT (fun j => rho (q x 0%nat) / s * delta j 0)))|].
    rewrite ES. right. field. lra. }
  split; [exact MU|]. split; [intros i j Hij Hj; apply NEAR, SO; assumption|].
  split; [intros a Ha NI j Hj; apply NEAR; apply OUT; assumption|]. split.
  - intros a c Ha. eapply Rle_trans; [exact MIN|]. apply Rmult_le_compat_l; [exact SC|]. eapply Rle_trans; [|apply SQ].
    apply Rplus_le_compat_l, Ropp_le_contravar. apply Rmult_le_compat_r; [left; apply Rinv_0_lt_compat; exact S0|].
    apply pow_incr. split; [apply PO|apply ALL; exact Ha].
  - intros ->. apply Rle_antisym; [exact MIN|]. rewrite VA. apply Rmult_le_compat_l; [exact SC|].
    assert (X : error_variance (lk_cov gamma kv K (feature_count train) cur []) (gp_noise g) test train x 1 (q x) (u x) =
      error_variance (lk_cov gamma kv K (feature_count train) cur []) (gp_noise g) test train x 1 (q x) (fun j => u x 0%nat * delta j 0)).
    { unfold error_variance. cbn [rsum]. replace (delta 0 0) with 1 by reflexivity. ring. }
    rewrite X, ES. apply SQ.
Qed.

(** ** The witnesses *)
Lemma pair_error_exp nu r s u0 u1 : s <> 0 -> 0 <= nu -> r ^ 2 <= 1 ->
  1 - s ^ 2 <= 1 - 2 * (u0 * s + u1 * (r * s)) + (u0 * u0 * 1 + u0 * u1 * r + (u1 * u0 * r + u1 * u1 * 1)).
Proof.
  intros _ _ H. pose proof (pow2_ge_0 (s - (u0 + u1 * r))). pose proof (pow2_ge_0 u1). nra.
Qed.
End NearCorr.
