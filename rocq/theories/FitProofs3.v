(** Lemmas for C123: fast prediction. *)
From Coq Require Import Lia Lra.
From Verif Require Import Base BaseFacts NdModel NdFacts RSum HyperModel NamedModel NamedSpec LinAlgModel LinAlgSpec LinAlgFacts Gauss
  GPModel NoiseModel MuyGPSModel MuyGPSProofs GPSpec GPTheorems FastProofs WellPosedProofs TensorModel TensorSpec TensorProofs KernelModel KernelSpec
  FlowModel FlowSpec FlowProofs PointwiseSpec LibSpec LibProofs MultiModel MultiProofs DriverModel DriverProofs
  WorkModel WorkSpec WorkProofs WorkLemmas NeighborsModel NeighborsSpec NeighborsProofs BatchProofs BatchLemmas TrainSpec TrainProofs3 FastWorkModel FastWorkProofs
  BestSpec BestGram BestProofs FarSpec FarProofs DupProofs SimplerSpec ExpoProofs NativeSpec NativeProofs FitSpec FitProofs.
Local Open Scope R_scope.

Section F.
Variables (gamma : R -> R) (kv : R -> R -> R).
Variable ls : lsolver.
Hypothesis EX : exact_solver ls.
Variable knn : dict nnval -> list point -> point -> nat -> list (nat * R).
Variable hnsw : nnval -> list point -> point -> nat -> list (nat * R).
Variable dist : dict nnval -> point -> point -> R.
Hypothesis Hsk : sklearn_ok knn dist.

Lemma fast_fit en method kw w g K cur train targets N n r :
  lower method = "exact"%string -> euclidean_kw kw -> nn_init en (rows_of train) n method kw = Ok w -> (1 < n)%nat -> (n + 1 <= N)%nat ->
  dataset train N -> shape targets = [N; r] -> distinct_rows train N (fun i => i) ->
  lk_ok K (feature_count train) cur [] -> noise_fits (gp_noise g) N n -> (forall x i, 0 <= noise_at (gp_noise g) None x i) ->
  let k := lk_cov gamma kv K (feature_count train) cur [] in
  let z := fun (q : nat -> nat -> nat) c j => feature train (with_self q c j) in
  exists q a,
    (forall c, (c < N)%nat -> nearest_others train N c n (q c)) /\
    (forall c s, (c < N)%nat -> (s < r)%nat -> best_fit k (gp_noise g) train c n (with_self q c) (fun b => at_ targets [b; s]) n (z q c) (a c s)) /\
    forall test M, (0 < M)%nat -> M <> 1%nat -> dataset test M -> ndim test = ndim train -> feature_count test = feature_count train ->
    exists mean, work_fast_manual ls knn hnsw (lib_model gamma kv g K cur) test train w targets = Ok mean /\
      forall x, (x < M)%nat -> exists c, (c < N)%nat /\ (forall b, (b < N)%nat -> row_dist test train x c <= row_dist test train x b) /\
        forall s, (s < r)%nat -> at_ mean (out_idx r x s) = span k n (z q c) (a c s) (feature test x).
Proof.
  intros Hm He Hi Hn1 Hn D2 HT DR OK NF NP k z.
  destruct (all_rows knn hnsw dist Hsk en method kw w train N n Hm He Hi Hn D2 DR) as (I & D & EB & CW & IB & NO).
  set (q := fun c j => nth j (nth c I []) O) in *.
  assert (En : S (n - 1) = n) by lia.
  assert (PK : pointwise_kernel (feature_count train) (lk_call gamma kv K cur []) k) by (apply lk_pointwise; auto).
  assert (NS : forall c, (c < N)%nat -> nonsingular n (nbr_matrix k (gp_noise g) train (with_self q) c)).
  { apply well_posed_ns; auto. apply self_well_posed; auto. }
  exists q, (fun c s => coefs ls n (nbr_matrix k (gp_noise g) train (with_self q) c) (fun j => at_ targets [with_self q c j; s])).
  assert (SO : forall c s, (c < N)%nat -> solves n (nbr_matrix k (gp_noise g) train (with_self q) c)
     (coefs ls n (nbr_matrix k (gp_noise g) train (with_self q) c) (fun j => at_ targets [with_self q c j; s])) (fun j => at_ targets [with_self q c j; s])).
  { intros c s Hc. apply (coefs_ok ls EX). apply NS; exact Hc. }
  split; [exact NO|]. split.
  { intros c s Hc Hs. exact (fit_best gamma kv K cur (gp_noise g) train c n (with_self q c) (fun b => at_ targets [b; s]) _ OK (fun j _ => NP c j) (SO c s Hc)). }
  intros test M HM0 HM D1 ND FC.
  destruct (lookup_rows knn hnsw dist Hsk en method kw w test train N M n Hm He Hi ltac:(lia) D1 D2 FC) as (I' & D' & EG & _ & IM & NR).
  set (p := nbr knn hnsw w test) in *.
  pose proof (manual_kriging ls EX g (feature_count train) (lk_call gamma kv K cur []) k (index_array n I) (index_array n I') test train targets N M (n - 1) (n - 1) q p r) as MV.
  rewrite En in MV. destruct MV as (out & Eo & So & Ho); auto; try lia.
  { intros i j. apply lk_cov_sym. }
  exists out. split.
  { unfold work_fast_manual. rewrite (row_count_ok _ _ D2). cbn [bind]. rewrite EB. cbn [bind]. rewrite EG. cbn [bind fst]. rewrite CW. exact Eo. }
  intros x Hx. pose proof (NR x Hx) as NRx. exists (p x O).
  assert (PN : (p x O < N)%nat) by (apply NRx; lia).
  split; [exact PN|]. split.
  { intros b Hb. destruct NRx as (_ & _ & SOR & OUT).
    destruct (list_in_dec n (p x) b) as [(i & Hi' & <-)|NI]; [apply (SOR 0%nat i); lia|apply (OUT b Hb NI 0%nat); lia]. }
  intros s Hs. destruct (Ho x s Hx Hs) as (u & U & ->).
  pose proof (nbr_sym gamma kv K (feature_count train) cur [] (gp_noise g) train n (with_self q) (p x O)) as SY. fold k in SY.
  pose proof (symmetric_adjoint n _ u _ _ _ SY U (SO (p x O) s PN)) as T. eapply eq_trans; [exact T|].
  unfold dot, span. apply rsum_ext. intros j Hj. unfold kcov, z. ring.
Qed.
End F.
