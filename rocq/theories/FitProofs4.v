(** Lemmas for C103: fast prediction between test rows with the same closest training row. *)
From Coq Require Import Lia Lra.
From Verif Require Import Base BaseFacts NdModel NdFacts RSum HyperModel NamedModel NamedSpec LinAlgModel LinAlgSpec LinAlgFacts Gauss
  GPModel NoiseModel MuyGPSModel GPSpec GPTheorems WellPosedProofs TensorModel TensorSpec TensorProofs KernelModel KernelSpec
  FlowModel FlowSpec FlowProofs PointwiseSpec LibSpec LibProofs MultiModel DriverModel
  WorkModel WorkSpec WorkProofs WorkLemmas NeighborsModel NeighborsSpec NeighborsProofs BatchProofs BatchLemmas TrainSpec FastWorkModel FastWorkProofs
  BestSpec BestGram BestProofs FarSpec FarProofs DupProofs SmoothSpec SimplerSpec ExpoProofs NativeSpec NativeProofs FitSpec FitProofs FitProofs3.
Local Open Scope R_scope.

Section P.
Variables (gamma : R -> R) (kv : R -> R -> R).

(** Values of a function of the space at two points differ by at most its norm times their distance in the kernel metric. *)
Lemma point_change K F cur p z a (v v' : nat -> R) : lk_ok K F cur [] -> let k := lk_cov gamma kv K F cur [] in
  (span k p z a v - span k p z a v') ^ 2 <= span_norm2 k p z a * (2 * (1 - k (fun f => v f - v' f))).
Proof.
  intros OK k.
  set (z' := fun j : nat => match j with O => v | _ => v' end).
  set (b := fun (t : R) (j : nat) => match j with O => t | _ => - t end).
  assert (K0 : forall u : nat -> R, k (fun f => u f - u f) = 1).
  { intros u. exact (lk_cov_0 gamma kv K F cur [] (fun _ => u) 0%nat OK). }
  assert (SY : forall u u' : nat -> R, k (fun f => u f - u' f) = k (fun f => u' f - u f)) by (intros; apply lk_sym).
  set (N := span_norm2 k p z a). set (D := span k p z a v - span k p z a v'). set (E := 2 * (1 - k (fun f => v f - v' f))).
  assert (NB : forall t, span_norm2 k 2 z' (b t) = t ^ 2 * E).
  { intros t. unfold span_norm2, E. cbn [rsum z' b]. rewrite !K0, (SY v' v). ring. }
  assert (Q : forall t, 0 <= N - 2 * (t * D) + t ^ 2 * E).
  { intros t. pose proof (psd_quad gamma kv K F cur [] (p + 2) (join p z z') (join p a (fun j => - b t j)) OK) as P. fold k in P.
    rewrite (norm2_join k SY p 2 z z' a (b t)), NB in P. eapply Rle_trans; [exact P|]. right. unfold N, D. cbn [rsum z' b]. ring. }
  assert (E0 : 0 <= E).
  { pose proof (psd_quad gamma kv K F cur [] 2 z' (b 1) OK) as P. fold k in P. rewrite NB in P. lra. }
  fold N D E. destruct E0 as [EP|EZ].
  - specialize (Q (D / E)). assert (X : N - 2 * (D / E * D) + (D / E) ^ 2 * E = N - D ^ 2 / E) by (field; lra). rewrite X in Q.
    apply Rmult_le_reg_r with (/ E); [apply Rinv_0_lt_compat; exact EP|]. replace (N * E * / E) with N by (field; lra). unfold Rdiv in Q. lra.
  - rewrite <- EZ in Q |- *. destruct (Req_dec D 0) as [->|DN]; [right; ring|]. exfalso.
    specialize (Q ((N + 1) / (2 * D))). assert (X : N - 2 * ((N + 1) / (2 * D) * D) + ((N + 1) / (2 * D)) ^ 2 * 0 = - 1) by (field; lra). lra.
Qed.

Variable ls : lsolver.
Hypothesis EX : exact_solver ls.
Variable knn : dict nnval -> list point -> point -> nat -> list (nat * R).
Variable hnsw : nnval -> list point -> point -> nat -> list (nat * R).
Variable dist : dict nnval -> point -> point -> R.
Hypothesis Hsk : sklearn_ok knn dist.

Lemma fast_smooth en method kw w g K cur train targets N n r L :
  lower method = "exact"%string -> euclidean_kw kw -> nn_init en (rows_of train) n method kw = Ok w -> (1 < n)%nat -> (n + 1 <= N)%nat ->
  dataset train N -> shape targets = [N; r] -> distinct_rows train N (fun i => i) ->
  lk_ok K (feature_count train) cur [] -> noise_fits (gp_noise g) N n -> (forall x i, 0 <= noise_at (gp_noise g) None x i) ->
  0 < L -> (forall f, (f < feature_count train)%nat -> L <= scale_of (lk_def K) cur [] f) ->
  exists E : nat -> nat -> R,
    (forall c s p z a, (c < N)%nat -> (s < r)%nat -> let k := lk_cov gamma kv K (feature_count train) cur [] in
       (forall b, (b < N)%nat -> at_ targets [b; s] = span k p z a (feature train b)) -> E c s <= span_norm2 k p z a) /\
    forall test test' M M', (1 < M)%nat -> (1 < M')%nat -> dataset test M -> dataset test' M' -> ndim test = ndim train -> ndim test' = ndim train ->
      feature_count test = feature_count train -> feature_count test' = feature_count train ->
    exists mean mean', work_fast_manual ls knn hnsw (lib_model gamma kv g K cur) test train w targets = Ok mean /\
      work_fast_manual ls knn hnsw (lib_model gamma kv g K cur) test' train w targets = Ok mean' /\
      forall x x' c s, (x < M)%nat -> (x' < M')%nat -> (c < N)%nat -> (s < r)%nat ->
        (forall b, (b < N)%nat -> b <> c -> row_dist test train x c < row_dist test train x b) ->
        (forall b, (b < N)%nat -> b <> c -> row_dist test' train x' c < row_dist test' train x' b) ->
        (at_ mean' (out_idx r x' s) - at_ mean (out_idx r x s)) ^ 2 <= 6 * E c s * point_dist test' test (feature_count train) x' x / L.
Proof.
  intros Hm He Hi Hn1 Hn D2 HT DR OK NF NP L0 HL.
  destruct (fast_fit gamma kv ls EX knn hnsw dist Hsk en method kw w g K cur train targets N n r Hm He Hi Hn1 Hn D2 HT DR OK NF NP) as (q & a & NO & BF & V).
  set (k := lk_cov gamma kv K (feature_count train) cur []) in *. cbv zeta beta in BF, V.
  exists (fun c s => span_norm2 k n (fun j => feature train (with_self q c j)) (a c s)). split.
  - intros c s p z a' Hc Hs k' HY. subst k'. fold k in HY |- *.
    assert (Q : forall j, (j < n)%nat -> (with_self q c j < N)%nat).
    { intros [|j] Hj; cbn [with_self]; [exact Hc|]. apply (NO c Hc). lia. }
    assert (RS : respects (gp_noise g) train c n (with_self q c) (fun b => at_ targets [b; s]) (span k p z a')) by (intros j Hj _; apply HY, Q, Hj).
    destruct (BF c s Hc Hs) as (_ & O). destruct (O p z a' RS) as [LE _].
    assert (Z : misfit (gp_noise g) train c n (with_self q c) (fun b => at_ targets [b; s]) (span k p z a') = 0).
    { unfold misfit. rewrite (rsum_ext n _ (fun _ => 0)); [rewrite rsum_const; ring|]. intros j Hj. rewrite (HY _ (Q j Hj)). unfold Rdiv. ring. }
    assert (P : 0 <= misfit (gp_noise g) train c n (with_self q c) (fun b => at_ targets [b; s])
       (span k n (fun j => feature train (with_self q c j)) (a c s))).
    { unfold misfit. apply rsum_nonneg. intros j Hj. destruct (NP c j) as [G|G].
      - apply Rmult_le_pos; [apply pow2_ge_0|left; apply Rinv_0_lt_compat; exact G].
      - destruct (BF c s Hc Hs) as (RR & _). rewrite (RR j Hj (eq_sym G)). unfold Rdiv. right. ring. }
    unfold penalised in LE. lra.
  - intros test test' M M' HM HM' D1 D1' ND ND' FC FC'.
    destruct (V test M) as (mean & E1 & H1); auto; try lia. destruct (V test' M') as (mean' & E2 & H2); auto; try lia.
    exists mean, mean'. split; [exact E1|]. split; [exact E2|]. intros x x' c s Hx Hx' Hc Hs NB NB'.
    destruct (H1 x Hx) as (c1 & Hc1 & M1 & W1). destruct (H2 x' Hx') as (c2 & Hc2 & M2 & W2).
    assert (c1 = c) as ->. { destruct (Nat.eq_dec c1 c) as [|NE]; [assumption|]. pose proof (NB c1 Hc1 NE). pose proof (M1 c Hc). lra. }
    assert (c2 = c) as ->. { destruct (Nat.eq_dec c2 c) as [|NE]; [assumption|]. pose proof (NB' c2 Hc2 NE). pose proof (M2 c Hc). lra. }
    rewrite (W1 s Hs), (W2 s Hs).
    eapply Rle_trans; [apply (point_change K (feature_count train) cur); exact OK|]. fold k.
    pose proof (lk_near gamma kv K cur [] test' test x' x L) as NR. rewrite FC in NR. specialize (NR OK L0 HL). fold k in NR. unfold kcov in NR. unfold point_dist.
    set (h := k (fun f => feature test' x' f - feature test x f)) in *. set (d := euclid (feature_count train) (feature test' x') (feature test x)) in *.
    set (S2 := span_norm2 k n (fun j => feature train (with_self q c j)) (a c s)) in *.
    assert (S0 : 0 <= S2). { unfold S2, k. apply psd_quad. exact OK. }
    apply Rle_trans with (S2 * (6 * (d / L))); [apply Rmult_le_compat_l; [exact S0|lra]|]. right. unfold Rdiv. ring.
Qed.
End P.
