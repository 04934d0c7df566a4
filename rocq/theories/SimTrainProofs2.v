(** do_regress in other coordinates of the features. *)
From Coq Require Import Lia Lra.
From Verif Require Import Base BaseFacts NdModel NdFacts RSum LinAlgModel LinAlgSpec LinAlgFacts
  GPModel NoiseModel MuyGPSModel MuyGPSProofs GPSpec GPTheorems ScaleSpec ScaleProofs TensorModel TensorSpec TensorProofs
  HyperModel HyperSpec NamedModel NamedSpec NamedProofs KernelModel KernelSpec FlowModel FlowSpec FlowProofs PointwiseSpec LibSpec LibProofs
  LossModel LossSpec LossProofs ChassisModel ChassisSpec ChassisProofs ObjectiveProofs MultiModel DriverModel ClassifyModel WorkModel WorkSpec WorkProofs WorkLemmas
  NeighborsModel NeighborsSpec NeighborsProofs BatchProofs BatchLemmas
  TrainModel TrainSpec TrainProofs TrainProofs2 TrainProofs3 BestProofs SimSpec SimProofs UnitsSpec UnitsProofs UnitsProofs2 UnitsProofs3
  SimTrainSpec SimTrainProofs.
Local Open Scope R_scope.

(** The other rows nearest to a row, when no two are at the same distance. *)
Lemma others_rows train N c n q : (c < N)%nat -> distinct_rows train N (fun i => i) -> (n + 1 <= N)%nat ->
  nearest_others train N c n q -> nearest_rows train train N c (n + 1) (fun j => match j with 0%nat => c | S j' => q j' end).
Proof.
  intros Hc DR Hn (A & B & C & D).
  assert (P : forall a, 0 <= row_dist train train c a) by (intros a; apply rsum_nonneg; intros; apply pow2_ge_0).
  assert (Z : row_dist train train c c = 0) by (apply row_dist_refl; intros f Hf; reflexivity).
  split; [|split; [|split]].
  - intros [|j] Hj; [exact Hc|apply A; lia].
  - intros [|i] [|j] Hi Hj E; auto.
    + exfalso. apply (proj2 (A j ltac:(lia))). auto.
    + exfalso. apply (proj2 (A i ltac:(lia))). auto.
    + f_equal. apply B; auto; lia.
  - intros [|i] [|j] Hij Hj; try lia; [lra|rewrite Z; apply P|]. apply C; lia.
  - intros a Ha NI [|j] Hj; [rewrite Z; apply P|].
    apply D; auto; [intros ->; apply (NI 0%nat); [lia|reflexivity]| |lia].
    intros i Hi E. apply (NI (S i)); [lia|exact E].
Qed.
Lemma others_unique train N c n q q' : (c < N)%nat -> distinct_rows train N (fun i => i) -> (n + 1 <= N)%nat -> no_ties train train N c ->
  nearest_others train N c n q -> nearest_others train N c n q' -> forall j, (j < n)%nat -> q' j = q j.
Proof.
  intros Hc DR Hn NT H H' j Hj.
  pose proof (nearest_unique train train N c (n + 1) _ _ NT (others_rows train N c n q' Hc DR Hn H') (others_rows train N c n q Hc DR Hn H) (S j)) as E.
  apply E. lia.
Qed.
Lemma others_scaled train train' N c n q : (forall a b, (a < N)%nat -> (b < N)%nat -> row_dist train' train' a b = 1 ^ 2 * row_dist train train a b) ->
  (c < N)%nat -> nearest_others train' N c n q -> nearest_others train N c n q.
Proof.
  intros SI Hc (A & B & C & D).
  assert (E : forall a, (a < N)%nat -> row_dist train' train' c a = row_dist train train c a) by (intros a Ha; rewrite SI by auto; ring).
  split; [exact A|]. split; [exact B|]. split.
  - intros i j Hij Hj. rewrite <- !E by (apply A; lia). apply C; auto.
  - intros a Ha Hac NI j Hj. rewrite <- !E; [|auto|apply A; auto]. apply D; auto.
Qed.

Section Do.
Variable ls : lsolver.
Hypothesis EX : exact_solver ls.
Variable slogdet : nat -> mat -> R * R.
Variable eps : R.
Variables (gamma : R -> R) (kv : R -> R -> R).
Variable knn : dict nnval -> list point -> point -> nat -> list (nat * R).
Variable hnsw : nnval -> list point -> point -> nat -> list (nat * R).
Variable dist : dict nnval -> point -> point -> R.
Hypothesis Hsk : sklearn_ok knn dist.

Lemma do_regress_moved opt en method kw w w0 test train test' train' targets N M n bc drawn s F l draws draws' names x0 bounds tried v0 :
  lower method = "exact"%string -> euclidean_kw kw -> nn_init en (rows_of train) n method kw = Ok w -> nn_init en (rows_of train') n method kw = Ok w0 ->
  (n + 1 <= N /\ 0 < M)%nat ->
  dataset test M -> ndim test = ndim train -> feature_count test = feature_count train ->
  dataset test' M -> ndim test' = ndim train' -> feature_count test' = feature_count train' ->
  dataset train N -> dataset train' N -> shape targets = [N] -> distinct_rows train N (fun i => i) -> (0 < bc)%nat -> (0 < n)%nat ->
  valid_choice (seq 0 N) bc drawn \/ (N <= bc)%nat ->
  model_ok s F -> bounds_ok s F -> positive_bounds s F -> leading_free s (k_ls (m_kernel (f_attr F))) ->
  get_opt_params s (f_attr F) = Ok (names, x0, bounds) -> (f_kind F = FixedScale \/ ~ In "noise"%string names) ->
  trainable s F train (Nat.min bc N) n -> trainable s F train' (Nat.min bc N) n -> full_noise s F = HomoscedasticNoise v0 -> 0 <= v0 ->
  scores_vectors l -> model_fixed s (f_attr F) = Ok false -> returns_best opt s F names bounds tried -> values_only opt s F names bounds ->
  similar 1 test train test' train' M N -> (forall a, (a < N)%nat -> no_ties train train N a) ->
  (forall x s1 F1 K, in_box x bounds -> new_muygps s F names bounds (combine names (map Fin x)) = Ok (s1, F1) ->
     trainable s1 F1 train (Nat.min bc N) n -> full_lib s1 F1 = Some K ->
     same_cov gamma kv K K (reals s1) (reals s1) test train test' train' M N) ->
  forall s' F' w' mean var,
  train_and_regress ls slogdet eps gamma kv opt knn hnsw en test train targets n bc method kw drawn s F l draws draws' = Ok (s', F', w', (mean, var)) ->
  exists mean' var',
    train_and_regress ls slogdet eps gamma kv opt knn hnsw en test' train' targets n bc method kw drawn s F l draws draws' = Ok (s', F', w0, (mean', var')) /\
    forall x, (x < M)%nat -> no_ties test train N x -> at_ mean' [x] = at_ mean [x] /\ at_ var' [x] = at_ var [x].
Proof.
  intros Hm He Hi Hi0 Hn D1 ND FC D1' ND' FC' D D' HT DR Hbc Hn0 VC MO BO PB LF EO SK TR TR' HN Hv LS2 MF OPT VO SIM NT SCV s' F' w' mean var RUN.
  pose proof SIM as [SI1 SI2].
  assert (DR' : distinct_rows train' N (fun i => i)).
  { intros i j Hi1 Hj1 NE. exact (similar_distinct train train' N 1 Rlt_0_1 SI2 i j Hi1 Hj1 (DR i j Hi1 Hj1 NE)). }
  destruct (batch_rows knn hnsw dist Hsk en method kw w train targets N n bc drawn Hm He Hi (proj1 Hn) D HT DR Hbc Hn0 VC)
    as (idx & I & ES & LEN & NDI & ALL & BK & NO).
  destruct (batch_rows knn hnsw dist Hsk en method kw w0 train' targets N n bc drawn Hm He Hi0 (proj1 Hn) D' HT DR' Hbc Hn0 VC)
    as (idx' & I' & ES' & _ & _ & _ & BK' & NO').
  assert (EI : idx' = idx).
  { unfold sample_batch in ES, ES'. apply bind_ok in ES as (r & _ & ES). apply bind_ok in ES' as (r' & _ & ES').
    injection ES as <- _. injection ES' as <- _. reflexivity. }
  subst idx'.
  set (c := fun x => nth x idx O) in *. set (q := fun x j => nth j (nth x I []) O) in *. set (q' := fun x j => nth j (nth x I' []) O) in *.
  set (b := Nat.min bc N) in *.
  assert (HC : forall x, (x < b)%nat -> (c x < N)%nat).
  { intros x Hx. destruct BK as (_ & _ & _ & _ & _ & HC & _). apply HC; auto. }
  assert (HQ : forall x j, (x < b)%nat -> (j < n)%nat -> (q x j < N)%nat).
  { intros x j Hx Hj. destruct BK as (_ & _ & _ & _ & _ & _ & IM). apply (proj2 IM x j Hx Hj). }
  assert (QE : forall x j, (x < b)%nat -> (j < n)%nat -> q' x j = q x j).
  { intros x j Hx Hj. exact (others_unique train N (c x) n (q x) (q' x) (HC x Hx) DR (proj1 Hn) (NT (c x) (HC x Hx)) (NO x Hx)
      (others_scaled train train' N (c x) n (q' x) SI2 (HC x Hx) (NO' x Hx)) j Hj). }
  assert (WP : loo_well_posed (full_noise s F) train b n c q).
  { apply (others_well_posed _ train N); auto. intros; rewrite HN; exact Hv. }
  assert (WP' : loo_well_posed (full_noise s F) train' b n c q').
  { apply (others_well_posed _ train' N); auto. intros; rewrite HN; exact Hv. }
  assert (KW : loss_kw_ok []) by (intros p []).
  destruct (tensors_total gamma kv s F train targets (index_vector idx) (index_array n I) N b n c q TR BK) as (t & Et).
  destruct (tensors_total gamma kv s F train' targets (index_vector idx) (index_array n I') N b n c q' TR' BK') as (t' & Et').
  set (obj := obj_fn ls slogdet eps gamma kv s F l [] None draws (tr_pair t) (tr_cross t) (tr_nn_targets t) (tr_targets t)).
  set (obj' := obj_fn ls slogdet eps gamma kv s F l [] None draws (tr_pair t') (tr_cross t') (tr_nn_targets t') (tr_targets t')).
  assert (CV := candidate_value ls EX slogdet eps gamma kv s F l [] draws train targets (index_vector idx) (index_array n I) N b n c q
    names x0 bounds t MO BO PB LF EO SK TR WP BK KW LS2 Et).
  assert (CV' := candidate_value ls EX slogdet eps gamma kv s F l [] draws train' targets (index_vector idx) (index_array n I') N b n c q'
    names x0 bounds t' MO BO PB LF EO SK TR' WP' BK' KW LS2 Et').
  assert (SAME : forall y, in_box y bounds -> exists v, obj (combine names y) = Ok v /\ obj' (combine names y) = Ok v).
  { intros y BY. destruct (CV y BY) as (s1 & F1 & v & E1 & O1 & V1 & LV1 & TR1 & WP1).
    destruct (CV' y BY) as (s2 & F2 & v' & E2 & O2 & V2 & LV2 & TR2 & WP2). rewrite E1 in E2. injection E2 as <- <-.
    exists v. split; [exact V1|]. unfold obj'. rewrite V2. f_equal. pose proof TR1 as (B1 & (K & L1 & OK) & _).
    destruct (SCV y s1 F1 K BY E1 TR1 L1) as [_ SA].
    apply (loo_same gamma kv s1 F1 s1 F1 l [] train train' targets b n c q q' v v' K K); auto.
    - apply well_posed_ns; auto. apply (loo_wp _ _ _ _ c). exact WP1.
    - intros z i j Hz Hi1 Hj1. unfold nbr_matrix, plus_diag. rewrite !QE by auto. rewrite SA by auto. reflexivity.
    - intros z j Hz Hj. rewrite QE by auto. apply SA; auto. }
  destruct (OPT obj) as (x & BX & EOpt & _).
  { intros y BY. destruct (SAME y BY) as (v & Ev & _). eauto. }
  assert (EO' : opt s F obj' = opt s F obj) by (symmetry; apply VO; exact SAME).
  destruct (CV x BX) as (s1 & F1 & v & E & O & OV & LV & TR1 & WP1).
  destruct (CV' x BX) as (s2 & F2 & v' & E2 & O2 & OV2 & LV2 & TR2 & WP2). rewrite E in E2. injection E2 as <- <-.
  pose proof TR1 as (B1 & (K & L & OK) & _). pose proof TR2 as (_ & (K' & L' & OK') & _). rewrite L in L'. injection L' as <-.
  pose proof O as (_ & _ & BA & _ & _ & KI1 & SC1).
  pose proof (SCV x s1 F1 K BX E TR1 L) as SA.
  assert (LX : List.length x = List.length names).
  { rewrite (in_box_length _ _ BX). apply (names_bounds_length s F names x0); auto. }
  assert (TT : full_train_tensors F1 (index_vector idx) (index_array n I) train targets = Ok t).
  { destruct (candidate_trainable s F names x0 bounds x MO PB EO) with (s' := s1) (F' := F1) (train := train) (b := b) (n := n)
      as (_ & _ & TT); auto. rewrite TT. exact Et. }
  assert (TT' : full_train_tensors F1 (index_vector idx) (index_array n I') train' targets = Ok t').
  { destruct (candidate_trainable s F names x0 bounds x MO PB EO) with (s' := s1) (F' := F1) (train := train') (b := b) (n := n)
      as (_ & _ & TT'); auto. rewrite TT'. exact Et'. }
  destruct (full_scale_ok ls EX gamma kv s1 F1 K train targets (index_vector idx) (index_array n I) N b n c q draws' t TR1 BA L WP1 BK TT) as (sc & SU & ESC).
  destruct (full_scale_ok ls EX gamma kv s1 F1 K train' targets (index_vector idx) (index_array n I') N b n c q' draws' t' TR2 BA L WP2 BK' TT') as (sc' & SU' & ESC').
  assert (EQ : sc' = sc).
  { unfold scale_used in SU, SU'. destruct (f_kind F1) as [|it|m it]; [congruence| |contradiction].
    replace sc with (1 ^ 2 * sc) by ring. refine (ml_scale_scaled b n _ _ _ _ 1 sc sc' _ _ _ SU SU').
    - apply well_posed_ns; auto. apply (loo_wp _ _ _ _ c). exact WP1.
    - intros z i j Hz Hi1 Hj1. unfold nbr_matrix, plus_diag. rewrite !QE by auto. rewrite (proj2 SA) by auto. reflexivity.
    - intros z i Hz Hi1. rewrite QE by auto. ring. }
  subst sc'. rewrite <- ESC in ESC'.
  (* the original run *)
  unfold train_and_regress, train_regressor in RUN. rewrite (row_count_ok _ _ D) in RUN. cbn [bind] in RUN. rewrite Hi in RUN. cbn [bind] in RUN.
  rewrite MF in RUN. cbn [bind] in RUN. rewrite ES in RUN. cbn [bind fst snd] in RUN. rewrite Et in RUN. cbn [bind] in RUN.
  unfold optimize_call in RUN. fold obj in RUN. rewrite EOpt, E in RUN. cbn [bind fst snd] in RUN.
  rewrite ESC in RUN, ESC'.
  destruct (Rleb sc 0) eqn:EB; [discriminate RUN|]. cbn [bind] in RUN.
  assert (SP : 0 < sc) by (unfold Rleb in EB; destruct (Rle_dec sc 0); [discriminate|lra]).
  destruct (noise_stays_homo s F names bounds _ s1 F1 v0 E HN) as (v1 & HN1).
  assert (V1 : 0 <= v1).
  { destruct (WP1 0%nat) as [P|(P & _)]; [unfold b; lia| |]; specialize (P 0%nat Hn0); rewrite HN1 in P; cbn in P; lra. }
  assert (NC : no_coincidence [] [n]) by (split; cbn; [lia|intros; lia]).
  assert (GB : gp_noise (gp_bound s1 (with_scale F1 sc)) = HomoscedasticNoise v1).
  { rewrite <- HN1. unfold gp_bound. cbn [with_scale f_bound f_attr f_hetero]. rewrite B1. reflexivity. }
  destruct (same_any gamma kv ls EX knn hnsw dist Hsk en method kw w en method kw w0 (gp_bound s1 (with_scale F1 sc)) K K (reals s1) (reals s1)
     test train test' train' targets N M n [] 1) as (m1 & r1 & m2 & r2 & P1 & P2 & P3); auto; try lia; try lra.
  { cbn. lra. }
  { rewrite GB. exact Logic.I. }
  { right. split; [|exact DR]. intros y i _ _. rewrite GB. exact V1. }
  rewrite (regress_any_full ls gamma kv knn hnsw s1 (with_scale F1 sc) K test train w targets B1 L), P1 in RUN. cbn [bind] in RUN. injection RUN as <- <- <- <- <-.
  exists m2, r2. split.
  - unfold train_and_regress, train_regressor. rewrite (row_count_ok _ _ D'). cbn [bind]. rewrite Hi0. cbn [bind]. rewrite MF. cbn [bind]. rewrite ES'.
    cbn [bind fst snd]. rewrite Et'. cbn [bind]. unfold optimize_call. fold obj'. rewrite EO', EOpt, E. cbn [bind fst snd]. rewrite ESC'. cbn [bind].
    rewrite (regress_any_full ls gamma kv knn hnsw s1 (with_scale F1 sc) K test' train' w0 targets B1 L), P2. cbn [bind]. reflexivity.
  - intros y Hy NTy. destruct (P3 y Hy NTy) as [V M']. split; [apply (M' []); apply inb_nil|exact V].
Qed.

(** Isotropic kernels and rigid motions (the number of features may change). *)
Lemma do_regress_rigid opt en method kw w w0 test train test' train' targets N M n bc drawn s F l draws draws' names x0 bounds tried v0 nm :
  lower method = "exact"%string -> euclidean_kw kw -> nn_init en (rows_of train) n method kw = Ok w -> nn_init en (rows_of train') n method kw = Ok w0 ->
  (n + 1 <= N /\ 0 < M)%nat ->
  dataset test M -> ndim test = ndim train -> feature_count test = feature_count train ->
  dataset test' M -> ndim test' = ndim train' -> feature_count test' = feature_count train' -> (0 < feature_count train')%nat ->
  dataset train N -> dataset train' N -> shape targets = [N] -> distinct_rows train N (fun i => i) -> (0 < bc)%nat -> (0 < n)%nat ->
  valid_choice (seq 0 N) bc drawn \/ (N <= bc)%nat ->
  model_ok s F -> bounds_ok s F -> positive_bounds s F -> k_ls (m_kernel (f_attr F)) = LSScalar nm ->
  get_opt_params s (f_attr F) = Ok (names, x0, bounds) -> (f_kind F = FixedScale \/ ~ In "noise"%string names) ->
  trainable s F train (Nat.min bc N) n -> full_noise s F = HomoscedasticNoise v0 -> 0 <= v0 ->
  scores_vectors l -> model_fixed s (f_attr F) = Ok false -> returns_best opt s F names bounds tried -> values_only opt s F names bounds ->
  similar 1 test train test' train' M N -> (forall a, (a < N)%nat -> no_ties train train N a) ->
  forall s' F' w' mean var,
  train_and_regress ls slogdet eps gamma kv opt knn hnsw en test train targets n bc method kw drawn s F l draws draws' = Ok (s', F', w', (mean, var)) ->
  exists mean' var',
    train_and_regress ls slogdet eps gamma kv opt knn hnsw en test' train' targets n bc method kw drawn s F l draws draws' = Ok (s', F', w0, (mean', var')) /\
    forall x, (x < M)%nat -> no_ties test train N x -> at_ mean' [x] = at_ mean [x] /\ at_ var' [x] = at_ var [x].
Proof.
  intros Hm He Hi Hi0 Hn D1 ND FC D1' ND' FC' F0 D D' HT DR Hbc Hn0 VC MO BO PB LSS EO SK TR HN Hv LS2 MF OPT VO SIM NT.
  apply (do_regress_moved opt en method kw w w0 test train test' train' targets N M n bc drawn s F l draws draws' names x0 bounds tried v0); auto.
  - rewrite LSS. exact Logic.I.
  - apply (trainable_iso s F nm train train'); auto.
  - intros x s1 F1 K BX E1 TR1 L1.
    pose proof (new_muygps_form _ _ _ _ _ _ _ E1) as EF1.
    assert (AT1 : f_attr F1 = model_make s1 (move_model (st_next s) (f_attr F))) by (subst F1; reflexivity).
    assert (KL : k_ls (kernel_make s1 (move_kernel (st_next s) (m_kernel (f_attr F)))) = move_ls (st_next s) (k_ls (m_kernel (f_attr F))))
      by (destruct (m_kernel (f_attr F)); reflexivity).
    assert (IS : lk_def K = Iso (f_metric F1) (move_named (st_next s) nm)).
    { unfold full_lib, full_deformation in L1. rewrite AT1 in L1. cbn [model_make move_model m_kernel] in L1. rewrite KL, LSS in L1.
      cbn [move_ls] in L1. destruct (kernel_make s1 (move_kernel (st_next s) (m_kernel (f_attr F)))); injection L1 as <-; reflexivity. }
    destruct TR1 as (_ & (K0 & L0 & (_ & OK1 & OK2 & _)) & _). rewrite L1 in L0. injection L0 as <-.
    assert (LP : reals s1 (nm_loc (move_named (st_next s) nm)) <> 0).
    { specialize (OK2 0%nat OK1). rewrite IS in OK2. cbn [scale_of] in OK2. unfold kw_or in OK2. cbn [dget] in OK2. lra. }
    refine (similar_cov gamma kv K _ (reals s1) (reals s1) test train test' train' M N 1 _ _ Rlt_0_1 LP _ SIM).
    + unfold isotropic. rewrite IS. reflexivity.
    + unfold same_smoothness. destruct K; auto.
    + ring.
Qed.

(** Any library kernel and another origin of the features. *)
Lemma do_regress_origin opt en method kw w w0 test train test' train' targets N M n bc drawn s F l draws draws' names x0 bounds tried v0 t :
  lower method = "exact"%string -> euclidean_kw kw -> nn_init en (rows_of train) n method kw = Ok w -> nn_init en (rows_of train') n method kw = Ok w0 ->
  (n + 1 <= N /\ 0 < M)%nat ->
  dataset test M -> ndim test = ndim train -> feature_count test = feature_count train ->
  dataset train N -> shape targets = [N] -> distinct_rows train N (fun i => i) -> (0 < bc)%nat -> (0 < n)%nat ->
  valid_choice (seq 0 N) bc drawn \/ (N <= bc)%nat ->
  model_ok s F -> bounds_ok s F -> positive_bounds s F -> leading_free s (k_ls (m_kernel (f_attr F))) ->
  get_opt_params s (f_attr F) = Ok (names, x0, bounds) -> (f_kind F = FixedScale \/ ~ In "noise"%string names) ->
  trainable s F train (Nat.min bc N) n -> full_noise s F = HomoscedasticNoise v0 -> 0 <= v0 ->
  scores_vectors l -> model_fixed s (f_attr F) = Ok false -> returns_best opt s F names bounds tried -> values_only opt s F names bounds ->
  new_units (fun _ => 1) t test test' M -> new_units (fun _ => 1) t train train' N -> (forall a, (a < N)%nat -> no_ties train train N a) ->
  forall s' F' w' mean var,
  train_and_regress ls slogdet eps gamma kv opt knn hnsw en test train targets n bc method kw drawn s F l draws draws' = Ok (s', F', w', (mean, var)) ->
  exists mean' var',
    train_and_regress ls slogdet eps gamma kv opt knn hnsw en test' train' targets n bc method kw drawn s F l draws draws' = Ok (s', F', w0, (mean', var')) /\
    forall x, (x < M)%nat -> no_ties test train N x -> at_ mean' [x] = at_ mean [x] /\ at_ var' [x] = at_ var [x].
Proof.
  intros Hm He Hi Hi0 Hn D1 ND FC D HT DR Hbc Hn0 VC MO BO PB LF EO SK TR HN Hv LS2 MF OPT VO U1 U2 NT.
  pose proof U1 as [S1 _]. pose proof U2 as [S2 _].
  assert (F1 : feature_count test' = feature_count test) by (unfold feature_count; rewrite S1; reflexivity).
  assert (F2 : feature_count train' = feature_count train) by (unfold feature_count; rewrite S2; reflexivity).
  assert (DS : forall (X X' : nd R) m, shape X' = shape X -> dataset X m -> dataset X' m) by (unfold dataset; intros X X' m ->; auto).
  apply (do_regress_moved opt en method kw w w0 test train test' train' targets N M n bc drawn s F l draws draws' names x0 bounds tried v0); auto.
  - apply (DS test); auto.
  - unfold ndim in *. rewrite S1, S2. exact ND.
  - congruence.
  - apply (DS train); auto.
  - destruct TR as (B & (K & L & OK) & R). split; [exact B|]. split; [|exact R]. exists K. rewrite F2. auto.
  - apply (units_similar 1 t); auto.
  - intros x s1 F3 K BX E1 (_ & (K0 & L0 & (_ & _ & OK2 & _)) & _) L1. rewrite L1 in L0. injection L0 as <-.
    apply (units_cov gamma kv K (reals s1) (reals s1) (fun _ => 1) t); auto.
    + unfold same_smoothness. destruct K; auto.
    + intros f Hf. split; [lra|ring].
Qed.
End Do.
