(** The order of the training rows does not matter to training: the objective and do_regress. *)
From Coq Require Import Lia Lra.
From Verif Require Import Base BaseFacts NdModel NdFacts RSum LinAlgModel LinAlgSpec LinAlgFacts
  GPModel NoiseModel MuyGPSModel MuyGPSProofs GPSpec GPTheorems ScaleSpec ScaleProofs TensorModel TensorSpec TensorProofs
  HyperModel HyperSpec NamedModel NamedSpec NamedProofs KernelModel KernelSpec FlowModel FlowSpec FlowProofs PointwiseSpec LibSpec LibProofs
  LossModel LossSpec LossProofs ChassisModel ChassisSpec ChassisProofs ObjectiveProofs MultiModel DriverModel ClassifyModel WorkModel WorkSpec WorkProofs WorkLemmas
  NeighborsModel NeighborsSpec NeighborsProofs BatchProofs BatchLemmas
  TrainModel TrainSpec TrainProofs TrainProofs2 TrainProofs3 BestProofs SimSpec SimProofs UnitsSpec UnitsProofs UnitsProofs2 UnitsProofs3
  SimTrainSpec SimTrainProofs SimTrainProofs2 RelabelProofs OrderSpec OrderProofs.
Local Open Scope R_scope.

Lemma reordered_dist train train' targets targets' N ex p i j : reordered train train' targets targets' N ex p -> (i < N)%nat -> (j < N)%nat ->
  row_dist train' train' i j = row_dist train train (p i) (p j).
Proof.
  intros RO Hi Hj. pose proof RO as (_ & SH & _ & RR).
  assert (FC : feature_count train' = feature_count train) by (unfold feature_count; rewrite SH; reflexivity).
  unfold row_dist, sqdist. rewrite FC. apply rsum_ext. intros f Hf. rewrite (proj1 (RR i Hi) f Hf), (proj1 (RR j Hj) f Hf). reflexivity.
Qed.
Lemma reordered_others train train' targets targets' N ex p c n q : reordered train train' targets targets' N ex p -> (c < N)%nat ->
  nearest_others train' N c n q -> nearest_others train N (p c) n (fun j => p (q j)).
Proof.
  intros RO Hc (A & B & C & D). pose proof RO as ((PB & PJ) & _).
  assert (E : forall a, (a < N)%nat -> row_dist train train (p c) (p a) = row_dist train' train' c a)
    by (intros a Ha; symmetry; apply (reordered_dist train train' targets targets' N ex p); auto).
  split; [|split; [|split]].
  - intros j Hj. destruct (A j Hj) as [A1 A2]. split; [auto|]. intros X. apply PJ in X; auto.
  - intros i j Hi Hj X. apply PJ in X; [|apply A; auto|apply A; auto]. apply B; auto.
  - intros i j Hij Hj. rewrite !E by (apply A; lia). apply C; auto.
  - intros a Ha NE NI j Hj. destruct (perm_inverse N p (conj PB PJ) a Ha) as (d & Hd & <-). rewrite !E; [|auto|apply A; auto].
    apply (D d Hd); [congruence| |exact Hj]. intros i Hi X. apply (NI i Hi). congruence.
Qed.
Lemma reordered_distinct train train' targets targets' N ex p : reordered train train' targets targets' N ex p ->
  distinct_rows train N (fun i => i) -> distinct_rows train' N (fun i => i).
Proof.
  intros RO DR i j Hi Hj NE. pose proof RO as ((PB & PJ) & SH & _ & RR).
  destruct (DR (p i) (p j)) as (f & Hf & X); auto.
  exists f. assert (FC : feature_count train' = feature_count train) by (unfold feature_count; rewrite SH; reflexivity).
  rewrite FC. split; [auto|]. rewrite (proj1 (RR i Hi) f Hf), (proj1 (RR j Hj) f Hf). exact X.
Qed.

Section Train.
Variable ls : lsolver.
Hypothesis EX : exact_solver ls.
Variable slogdet : nat -> mat -> R * R.
Variable eps : R.
Variables (gamma : R -> R) (kv : R -> R -> R).

Lemma objective_reordered s F l kw draws train train' targets targets' ix nn ix' nn' N b n c q c' q' names x0 bounds t t' p pi v0 :
  model_ok s F -> bounds_ok s F -> positive_bounds s F -> leading_free s (k_ls (m_kernel (f_attr F))) ->
  get_opt_params s (f_attr F) = Ok (names, x0, bounds) -> (f_kind F = FixedScale \/ ~ In "noise"%string names) ->
  trainable s F train b n -> loo_well_posed (full_noise s F) train b n c q -> full_noise s F = HomoscedasticNoise v0 ->
  batch_ok train targets ix nn N b n c q -> batch_ok train' targets' ix' nn' N b n c' q' -> loss_kw_ok kw -> scores_vectors l ->
  reordered train train' targets targets' N [] p -> perm_on b pi ->
  (forall x, (x < b)%nat -> c (pi x) = p (c' x)) -> (forall x j, (x < b)%nat -> (j < n)%nat -> q (pi x) j = p (q' x j)) ->
  full_train_tensors F ix nn train targets = Ok t -> full_train_tensors F ix' nn' train' targets' = Ok t' ->
  forall x, in_box x bounds -> exists v,
    obj_fn ls slogdet eps gamma kv s F l kw None draws (tr_pair t) (tr_cross t) (tr_nn_targets t) (tr_targets t) (combine names x) = Ok v /\
    obj_fn ls slogdet eps gamma kv s F l kw None draws (tr_pair t') (tr_cross t') (tr_nn_targets t') (tr_targets t') (combine names x) = Ok v.
Proof.
  intros MO BO PB LF EO SK TR WP HN BK BK' KW LS RO PI CE QE Et Et' x BX.
  assert (UN : uniform_noise (full_noise s F)) by (right; eauto).
  pose proof (order_features train train' targets targets' N p RO) as FE.
  assert (HC : forall y, (y < b)%nat -> (c' y < N)%nat /\ c (pi y) = p (c' y)).
  { intros y Hy. split; [|auto]. destruct BK' as (_ & _ & _ & _ & _ & HC & _). apply HC; auto. }
  assert (HQ : forall y j, (y < b)%nat -> (j < n)%nat -> (q' y j < N)%nat /\ q (pi y) j = p (q' y j)).
  { intros y j Hy Hj. split; [|auto]. destruct BK' as (_ & _ & _ & _ & _ & _ & IM). apply (proj2 IM y j Hy Hj). }
  assert (TR' : trainable s F train' b n).
  { destruct TR as (B & (K & L & OK) & R). split; [exact B|]. split; [|exact R]. exists K. rewrite FE. auto. }
  pose proof (well_posed_order train train' targets targets' N p RO b n c c' q q' pi PI HC HQ _ UN WP) as WP'.
  destruct (candidate_value ls EX slogdet eps gamma kv s F l kw draws train targets ix nn N b n c q names x0 bounds t
    MO BO PB LF EO SK TR WP BK KW LS Et x BX) as (s1 & F1 & v & E1 & O1 & V1 & LV1 & TR1 & WP1).
  destruct (candidate_value ls EX slogdet eps gamma kv s F l kw draws train' targets' ix' nn' N b n c' q' names x0 bounds t'
    MO BO PB LF EO SK TR' WP' BK' KW LS Et' x BX) as (s2 & F2 & v' & E2 & O2 & V2 & LV2 & TR2 & WP2).
  rewrite E1 in E2. injection E2 as <- <-.
  exists v. split; [exact V1|]. rewrite V2. f_equal.
  pose proof TR1 as (_ & (K & L1 & OK) & _). pose proof TR2 as (_ & (K' & L2 & OK') & _). rewrite L1 in L2. injection L2 as <-.
  destruct (noise_stays_homo s F names bounds _ s1 F1 v0 E1 HN) as (v1 & HN1).
  assert (UN1 : uniform_noise (full_noise s1 F1)) by (right; eauto).
  pose proof (loo_order gamma kv train train' targets targets' N p RO b n c c' q q' pi PI HC HQ s1 F1 l kw K v L1 OK UN1 LV1) as LV.
  apply (loo_same gamma kv s1 F1 s1 F1 l kw train' train' targets' b n c' q' q' v v' K K); auto.
  apply well_posed_ns; auto. apply (loo_wp _ _ _ _ c'). exact WP2.
Qed.

Variable knn : dict nnval -> list point -> point -> nat -> list (nat * R).
Variable hnsw : nnval -> list point -> point -> nat -> list (nat * R).
Variable dist : dict nnval -> point -> point -> R.
Hypothesis Hsk : sklearn_ok knn dist.

Lemma do_regress_reordered opt en method kw w w0 test train train' targets targets' N M n bc drawn drawn' s F l draws draws' names x0 bounds tried v0 p :
  lower method = "exact"%string -> euclidean_kw kw -> nn_init en (rows_of train) n method kw = Ok w -> nn_init en (rows_of train') n method kw = Ok w0 ->
  (n + 1 <= N /\ 0 < M)%nat ->
  dataset test M -> ndim test = ndim train -> feature_count test = feature_count train ->
  dataset train N -> shape targets = [N] -> distinct_rows train N (fun i => i) -> (0 < bc)%nat -> (0 < n)%nat ->
  same_batch N bc p drawn drawn' ->
  model_ok s F -> bounds_ok s F -> positive_bounds s F -> leading_free s (k_ls (m_kernel (f_attr F))) ->
  get_opt_params s (f_attr F) = Ok (names, x0, bounds) -> (f_kind F = FixedScale \/ ~ In "noise"%string names) ->
  trainable s F train (Nat.min bc N) n -> full_noise s F = HomoscedasticNoise v0 -> 0 <= v0 ->
  scores_vectors l -> model_fixed s (f_attr F) = Ok false -> returns_best opt s F names bounds tried -> values_only opt s F names bounds ->
  reordered train train' targets targets' N [] p -> (forall a, (a < N)%nat -> no_ties train train N a) ->
  forall s' F' w' mean var,
  train_and_regress ls slogdet eps gamma kv opt knn hnsw en test train targets n bc method kw drawn s F l draws draws' = Ok (s', F', w', (mean, var)) ->
  exists mean' var',
    train_and_regress ls slogdet eps gamma kv opt knn hnsw en test train' targets' n bc method kw drawn' s F l draws draws' = Ok (s', F', w0, (mean', var')) /\
    forall x, (x < M)%nat -> no_ties test train N x -> at_ mean' [x] = at_ mean [x] /\ at_ var' [x] = at_ var [x].
Proof.
  intros Hm He Hi Hi0 Hn D1 ND FC D HT DR Hbc Hn0 SB MO BO PB LF EO SK TR HN Hv LS2 MF OPT VO RO NT s' F' w' mean var RUN.
  pose proof RO as (PM & SH & SHT & RR).
  pose proof (order_features train train' targets targets' N p RO) as FE.
  assert (D' : dataset train' N) by (unfold dataset; rewrite SH; exact D).
  assert (HT' : shape targets' = [N]) by congruence.
  pose proof (reordered_distinct _ _ _ _ _ _ _ RO DR) as DR'.
  assert (TR' : trainable s F train' (Nat.min bc N) n).
  { destruct TR as (B & (K & L & OK) & R). split; [exact B|]. split; [|exact R]. exists K. rewrite FE. auto. }
  assert (VC : valid_choice (seq 0 N) bc drawn \/ (N <= bc)%nat) by (destruct SB as [|(? & ? & _)]; auto).
  assert (VC' : valid_choice (seq 0 N) bc drawn' \/ (N <= bc)%nat) by (destruct SB as [|(? & ? & _)]; auto).
  destruct (batch_rows knn hnsw dist Hsk en method kw w train targets N n bc drawn Hm He Hi (proj1 Hn) D HT DR Hbc Hn0 VC)
    as (idx & I & ES & LEN & NDI & ALL & BK & NO).
  destruct (batch_rows knn hnsw dist Hsk en method kw w0 train' targets' N n bc drawn' Hm He Hi0 (proj1 Hn) D' HT' DR' Hbc Hn0 VC')
    as (idx' & I' & ES' & LEN' & NDI' & ALL' & BK' & NO').
  set (c := fun x => nth x idx O) in *. set (q := fun x j => nth j (nth x I []) O) in *.
  set (c' := fun x => nth x idx' O) in *. set (q' := fun x j => nth j (nth x I' []) O) in *.
  set (b := Nat.min bc N) in *.
  assert (IDX : idx = if (bc <? N)%nat then drawn else seq 0 N).
  { unfold sample_batch in ES. apply bind_ok in ES as (r & _ & ES). injection ES as <- _. reflexivity. }
  assert (IDX' : idx' = if (bc <? N)%nat then drawn' else seq 0 N).
  { unfold sample_batch in ES'. apply bind_ok in ES' as (r & _ & ES'). injection ES' as <- _. reflexivity. }
  assert (HC0 : forall x, (x < b)%nat -> (c x < N)%nat).
  { intros x Hx. destruct BK as (_ & _ & _ & _ & _ & HC & _). apply HC; auto. }
  assert (HC1 : forall x, (x < b)%nat -> (c' x < N)%nat).
  { intros x Hx. destruct BK' as (_ & _ & _ & _ & _ & HC & _). apply HC; auto. }
  destruct (batch_match N b p idx idx' PM LEN LEN' NDI') as (pi & PI & PE).
  { intros a Ha. apply (In_nth _ _ O) in Ha as (x & Hx & <-). apply (HC1 x). lia. }
  { intros a Ha. rewrite IDX, IDX'. destruct (Nat.ltb_spec bc N) as [LT|GE].
    - destruct SB as [GE|(_ & _ & X)]; [lia|]. apply X; auto.
    - intros _. apply in_seq. pose proof (proj1 PM a Ha). lia. }
  assert (CE : forall x, (x < b)%nat -> c (pi x) = p (c' x)) by (intros x Hx; apply PE; auto).
  assert (HQ1 : forall x j, (x < b)%nat -> (j < n)%nat -> (q' x j < N)%nat).
  { intros x j Hx Hj. destruct BK' as (_ & _ & _ & _ & _ & _ & IM). apply (proj2 IM x j Hx Hj). }
  assert (QE : forall x j, (x < b)%nat -> (j < n)%nat -> q (pi x) j = p (q' x j)).
  { intros x j Hx Hj. pose proof (proj1 PI x Hx) as Hp. symmetry.
    refine (others_unique train N (c (pi x)) n (q (pi x)) (fun j => p (q' x j)) (HC0 _ Hp) DR (proj1 Hn) (NT _ (HC0 _ Hp)) (NO _ Hp) _ j Hj).
    rewrite CE by auto. exact (reordered_others train train' targets targets' N [] p (c' x) n (q' x) RO (HC1 x Hx) (NO' x Hx)). }
  assert (HC : forall y, (y < b)%nat -> (c' y < N)%nat /\ c (pi y) = p (c' y)) by auto.
  assert (HQ : forall y j, (y < b)%nat -> (j < n)%nat -> (q' y j < N)%nat /\ q (pi y) j = p (q' y j)) by auto.
  assert (WP : loo_well_posed (full_noise s F) train b n c q).
  { apply (others_well_posed _ train N); auto. intros; rewrite HN; exact Hv. }
  assert (WP' : loo_well_posed (full_noise s F) train' b n c' q').
  { apply (others_well_posed _ train' N); auto. intros; rewrite HN; exact Hv. }
  assert (KW : loss_kw_ok []) by (intros z []).
  destruct (tensors_total gamma kv s F train targets (index_vector idx) (index_array n I) N b n c q TR BK) as (t & Et).
  destruct (tensors_total gamma kv s F train' targets' (index_vector idx') (index_array n I') N b n c' q' TR' BK') as (t' & Et').
  set (obj := obj_fn ls slogdet eps gamma kv s F l [] None draws (tr_pair t) (tr_cross t) (tr_nn_targets t) (tr_targets t)).
  set (obj' := obj_fn ls slogdet eps gamma kv s F l [] None draws (tr_pair t') (tr_cross t') (tr_nn_targets t') (tr_targets t')).
  assert (SAME : forall y, in_box y bounds -> exists v, obj (combine names y) = Ok v /\ obj' (combine names y) = Ok v).
  { exact (objective_reordered s F l [] draws train train' targets targets' (index_vector idx) (index_array n I) (index_vector idx') (index_array n I')
      N b n c q c' q' names x0 bounds t t' p pi v0 MO BO PB LF EO SK TR WP HN BK BK' KW LS2 RO PI CE QE Et Et'). }
  assert (CV := candidate_value ls EX slogdet eps gamma kv s F l [] draws train targets (index_vector idx) (index_array n I) N b n c q
    names x0 bounds t MO BO PB LF EO SK TR WP BK KW LS2 Et).
  assert (CV' := candidate_value ls EX slogdet eps gamma kv s F l [] draws train' targets' (index_vector idx') (index_array n I') N b n c' q'
    names x0 bounds t' MO BO PB LF EO SK TR' WP' BK' KW LS2 Et').
  destruct (OPT obj) as (x & BX & EOpt & _).
  { intros y BY. destruct (SAME y BY) as (v & Ev & _). eauto. }
  assert (EO' : opt s F obj' = opt s F obj) by (symmetry; apply VO; exact SAME).
  destruct (CV x BX) as (s1 & F1 & v & E & O & OV & LV & TR1 & WP1).
  destruct (CV' x BX) as (s2 & F2 & v' & E2 & O2 & OV2 & LV2 & TR2 & WP2). rewrite E in E2. injection E2 as <- <-.
  pose proof TR1 as (B1 & (K & L & OK) & _). pose proof TR2 as (_ & (K' & L' & OK') & _). rewrite L in L'. injection L' as <-.
  pose proof O as (_ & _ & BA & _ & _ & KI1 & SC1).
  assert (LX : List.length x = List.length names).
  { rewrite (in_box_length _ _ BX). apply (names_bounds_length s F names x0); auto. }
  assert (TT : full_train_tensors F1 (index_vector idx) (index_array n I) train targets = Ok t).
  { destruct (candidate_trainable s F names x0 bounds x MO PB EO) with (s' := s1) (F' := F1) (train := train) (b := b) (n := n)
      as (_ & _ & TT); auto. rewrite TT. exact Et. }
  assert (TT' : full_train_tensors F1 (index_vector idx') (index_array n I') train' targets' = Ok t').
  { destruct (candidate_trainable s F names x0 bounds x MO PB EO) with (s' := s1) (F' := F1) (train := train') (b := b) (n := n)
      as (_ & _ & TT'); auto. rewrite TT'. exact Et'. }
  destruct (full_scale_ok ls EX gamma kv s1 F1 K train targets (index_vector idx) (index_array n I) N b n c q draws' t TR1 BA L WP1 BK TT) as (sc & SU & ESC).
  destruct (full_scale_ok ls EX gamma kv s1 F1 K train' targets' (index_vector idx') (index_array n I') N b n c' q' draws' t' TR2 BA L WP2 BK' TT') as (sc' & SU' & ESC').
  destruct (noise_stays_homo s F names bounds _ s1 F1 v0 E HN) as (v1 & HN1).
  assert (UN1 : uniform_noise (full_noise s1 F1)) by (right; eauto).
  destruct (lk_pointwise gamma kv K _ _ _ OK) as [LC _].
  assert (EQ : sc' = sc).
  { pose proof (scale_order train train' targets targets' N p RO b n q q' pi PI HQ F1 _ _ sc LC UN1 SU) as SU2.
    unfold scale_used in SU', SU2. rewrite FE in SU'. destruct (f_kind F1) as [|it|m it]; [congruence| |contradiction].
    replace sc with (1 ^ 2 * sc) by ring. refine (ml_scale_scaled b n _ _ _ _ 1 sc sc' _ _ _ SU2 SU').
    - rewrite <- FE. apply well_posed_ns; auto. apply (loo_wp _ _ _ _ c'). exact WP2.
    - reflexivity.
    - intros; ring. }
  subst sc'. rewrite <- ESC in ESC'.
  (* the original run *)
  unfold train_and_regress, train_regressor in RUN. rewrite (row_count_ok _ _ D) in RUN. cbn [bind] in RUN. rewrite Hi in RUN. cbn [bind] in RUN.
  rewrite MF in RUN. cbn [bind] in RUN. rewrite ES in RUN. cbn [bind fst snd] in RUN. rewrite Et in RUN. cbn [bind] in RUN.
  unfold optimize_call in RUN. fold obj in RUN. rewrite EOpt, E in RUN. cbn [bind fst snd] in RUN.
  rewrite ESC in RUN, ESC'.
  destruct (Rleb sc 0) eqn:EB; [discriminate RUN|]. cbn [bind] in RUN.
  assert (SP : 0 < sc) by (unfold Rleb in EB; destruct (Rle_dec sc 0); [discriminate|lra]).
  assert (V1 : 0 <= v1).
  { destruct (WP1 0%nat) as [P|(P & _)]; [unfold b; lia| |]; specialize (P 0%nat Hn0); rewrite HN1 in P; cbn in P; lra. }
  assert (NC : no_coincidence [] [n]) by (split; cbn; [lia|intros; lia]).
  assert (GB : gp_noise (gp_bound s1 (with_scale F1 sc)) = HomoscedasticNoise v1).
  { rewrite <- HN1. unfold gp_bound. cbn [with_scale f_bound f_attr f_hetero]. rewrite B1. reflexivity. }
  destruct (regress_any_reordered gamma kv ls EX knn hnsw dist Hsk en method kw w en method kw w0 (gp_bound s1 (with_scale F1 sc)) K (reals s1) []
     test train train' targets targets' N M n [] p) as (m1 & r1 & m2 & r2 & P1 & P2 & P3); auto; try lia; try lra.
  { cbn. lra. }
  { rewrite GB. right; eauto. }
  { right. split; [|exact DR]. intros y i _ _. rewrite GB. exact V1. }
  rewrite (regress_any_full ls gamma kv knn hnsw s1 (with_scale F1 sc) K test train w targets B1 L) in RUN. unfold lib_model in RUN.
  rewrite P1 in RUN. cbn [bind] in RUN. injection RUN as <- <- <- <- <-.
  exists m2, r2. split.
  - unfold train_and_regress, train_regressor. rewrite (row_count_ok _ _ D'). cbn [bind]. rewrite Hi0. cbn [bind]. rewrite MF. cbn [bind]. rewrite ES'.
    cbn [bind fst snd]. rewrite Et'. cbn [bind]. unfold optimize_call. fold obj'. rewrite EO', EOpt, E. cbn [bind fst snd]. rewrite ESC'. cbn [bind].
    rewrite (regress_any_full ls gamma kv knn hnsw s1 (with_scale F1 sc) K test train' w0 targets' B1 L). unfold lib_model. rewrite P2. cbn [bind]. reflexivity.
  - intros y Hy NTy. destruct (P3 y Hy NTy) as [V M']. split; [symmetry; apply (M' []); apply inb_nil|symmetry; exact V].
Qed.
End Train.
