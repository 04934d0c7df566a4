(** Lemmas for C116: fast prediction. *)
From Coq Require Import Lia Lra.
From Verif Require Import Base BaseFacts NdModel NdFacts RSum HyperModel NamedModel NamedSpec LinAlgModel LinAlgSpec LinAlgFacts Gauss
  GPModel NoiseModel MuyGPSModel GPSpec GPTheorems WellPosedProofs TensorModel TensorSpec TensorProofs KernelModel KernelSpec
  NeighborsModel NeighborsSpec NeighborsProofs FlowModel FlowSpec FlowProofs PointwiseSpec LibSpec LibProofs
  MultiModel DriverModel WorkModel WorkSpec WorkProofs WorkLemmas TrainSpec FastWorkModel FastWorkProofs
  BestSpec BestGram BestProofs FarSpec FarProofs DupProofs SimplerSpec ExpoProofs NativeSpec NativeProofs.
Local Open Scope R_scope.

Section F.
Variables (gamma : R -> R) (kv : R -> R -> R).

(** Kriging without noise from any distinct rows. *)
Lemma native_rate K cur m m' c test train x n (q : nat -> nat) u p z a (y : nat -> R) L : lk_ok K (feature_count train) cur [] -> (0 < n)%nat ->
  0 < L -> (forall f, (f < feature_count train)%nat -> L <= scale_of (lk_def K) cur [] f) ->
  distinct_rows train n q -> (forall i, (i < n)%nat -> noise_at m None x i = 0) -> (forall i, (i < n)%nat -> noise_at m' None c i = 0) ->
  let k := lk_cov gamma kv K (feature_count train) cur [] in
  solves n (plus_diag (fun i j => kcov k train train (q i) (q j)) (noise_at m' None c)) u (fun j => kcov k test train x (q j)) ->
  (forall j, (j < n)%nat -> y (q j) = span k p z a (feature train (q j))) ->
  (dot n u (fun j => y (q j)) - span k p z a (feature test x)) ^ 2 <=
  6 * span_norm2 k p z a * euclid (feature_count train) (feature test x) (feature train (q 0%nat)) / L.
Proof.
  intros OK Hn L0 HL DR Z Z' k SO HY.
  pose proof (native_core gamma kv K cur NullNoise test train x n q u p z a y OK) as C. cbv zeta in C. fold k in C.
  specialize (C ltac:(intros; cbn; lra) ltac:(intros j Hj; right; split; [reflexivity|apply HY; exact Hj])).
  assert (MF : misfit NullNoise train x n q y (span k p z a) = 0).
  { unfold misfit. rewrite (rsum_ext n _ (fun _ => 0)); [apply rsum_0|]. intros j Hj. rewrite HY by exact Hj. unfold Rdiv. ring. }
  rewrite MF, Rplus_0_r in C.
  assert (SO' : solves n (nbr_matrix k NullNoise train (fun _ => q) x) u (fun j => kcov k test train x (q j))).
  { intros i Hi. rewrite <- (SO i Hi). apply rsum_ext. intros j Hj. unfold nbr_matrix, plus_diag. rewrite Z' by exact Hi. reflexivity. }
  assert (WP : well_posed NullNoise train (S x) n (fun _ => q)).
  { intros v Hv. right. split; [intros; cbn; lra|exact DR]. }
  destruct (error_optimal gamma kv K cur [] NullNoise test train (S x) x n (fun _ => q) u OK WP ltac:(lia) SO') as [_ OPT].
  destruct (OPT (fun j => delta j 0)) as [O1 _]. clear OPT. cbv beta in O1.
  pose proof (error_one gamma kv K cur NullNoise test train x n q OK Hn) as E1. cbv zeta in E1. fold k in E1, O1. rewrite E1 in O1. clear E1.
  pose proof (lk_near gamma kv K cur [] test train x (q 0%nat) L OK L0 HL) as NE. fold k in NE. cbn [noise_at] in O1.
  pose proof (psd_quad gamma kv K _ cur [] p z a OK) as P. fold k in P.
  set (D := euclid (feature_count train) (feature test x) (feature train (q 0%nat))) in *.
  apply Rle_trans with (span_norm2 k p z a * error_variance k NullNoise test train x n q u).
  - match type of C with ?A <= ?B => apply Rle_trans with A; [right; unfold dot; ring|exact C] end.
  - apply Rle_trans with (span_norm2 k p z a * (6 * (D / L))); [apply Rmult_le_compat_l; [exact P|lra]|right; unfold Rdiv; ring].
Qed.

Variable ls : lsolver.
Hypothesis EX : exact_solver ls.
Variable knn : dict nnval -> list point -> point -> nat -> list (nat * R).
Variable hnsw : nnval -> list point -> point -> nat -> list (nat * R).
Variable dist : dict nnval -> point -> point -> R.
Hypothesis SK : sklearn_ok knn dist.

Lemma fast_rate en method kw w g K cur test train targets N M n r L p z a s :
  lower method = "exact"%string -> euclidean_kw kw -> nn_init en (rows_of train) n method kw = Ok w -> (1 < n)%nat -> (n + 1 <= N /\ 0 < M)%nat ->
  dataset test M -> dataset train N -> ndim test = ndim train -> feature_count test = feature_count train -> shape targets = [N; r] ->
  M <> 1%nat -> distinct_rows train N (fun i => i) ->
  lk_ok K (feature_count train) cur [] -> noise_fits (gp_noise g) N n -> (forall x i, noise_at (gp_noise g) None x i = 0) ->
  0 < L -> (forall f, (f < feature_count train)%nat -> L <= scale_of (lk_def K) cur [] f) -> (s < r)%nat ->
  let k := lk_cov gamma kv K (feature_count train) cur [] in
  let fn := span k p z a in
  (forall b, (b < N)%nat -> at_ targets [b; s] = fn (feature train b)) ->
  exists mean,
    work_fast_manual ls knn hnsw (lib_model gamma kv g K cur) test train w targets = Ok mean /\
    forall x b, (x < M)%nat -> (b < N)%nat ->
      (at_ mean (out_idx r x s) - fn (feature test x)) ^ 2 <= 6 * span_norm2 k p z a * euclid (feature_count train) (feature test x) (feature train b) / L.
Proof.
  intros Hm He Hw Hn Hn' D1 D2 ND FC HT HM DR OK NF NZ L0 HL Hs k fn HY.
  destruct (fast_manual_uni gamma kv ls EX knn hnsw dist SK en method kw w g K cur test train targets N M n r) as (mean & q & P & E & _ & NO & V & _); auto.
  { intros x i. rewrite NZ. lra. }
  exists mean. split; [exact E|]. intros x b Hx Hb. destruct (V x Hx) as [NR KR]. destruct (KR s Hs) as (u & SO & ->).
  assert (PN : (P x 0%nat < N)%nat) by (apply NR; lia). set (c := P x 0%nat) in *.
  destruct (NO c PN) as (N1 & N2 & _).
  assert (IN : forall j, (j < n)%nat -> (with_self q c j < N)%nat) by (intros [|j] Hj; cbn [with_self]; [exact PN|apply N1; lia]).
  assert (DR' : distinct_rows train n (with_self q c)).
  { intros i j Hi Hj Hij. apply (DR (with_self q c i) (with_self q c j)); auto. destruct i as [|i], j as [|j]; cbn [with_self]; try lia.
    - intros Q. apply (N1 j); [lia|congruence].
    - intros Q. apply (N1 i); [lia|congruence].
    - intros Q. apply Hij. f_equal. apply N2; [lia|lia|exact Q]. }
  eapply Rle_trans; [apply (native_rate K cur NullNoise (gp_noise g) c test train x n (with_self q c) u p z a (fun b => at_ targets [b; s]) L); auto; lia|].
  - assert (H3 : euclid (feature_count train) (feature test x) (feature train (with_self q c 0)) <= euclid (feature_count train) (feature test x) (feature train b)).
    { unfold euclid. apply sqrt_le_1_alt. cbn [with_self]. destruct NR as (_ & _ & SO' & OUT). unfold c.
      destruct (list_in_dec n (P x) b) as [(i & Hi & <-)|NI]; [apply (SO' 0%nat i); lia|apply (OUT b Hb NI 0%nat); lia]. }
    pose proof (psd_quad gamma kv K _ cur [] p z a OK) as PS. fold k in PS |- *.
    unfold Rdiv. apply Rmult_le_compat_r; [left; apply Rinv_0_lt_compat; exact L0|]. apply Rmult_le_compat_l; [lra|exact H3].
Qed.
End F.
