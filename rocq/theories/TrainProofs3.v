(** Proofs about make_regressor and do_regress with real training. *)
From Coq Require Import Lia Lra.
From Verif Require Import Base BaseFacts NdModel NdFacts RSum LinAlgModel LinAlgSpec LinAlgFacts
  GPModel NoiseModel MuyGPSModel MuyGPSProofs GPSpec GPTheorems ScaleSpec ScaleProofs TensorModel TensorSpec TensorProofs
  HyperModel HyperSpec NamedModel NamedSpec NamedProofs KernelModel KernelSpec FlowModel FlowSpec FlowProofs PointwiseSpec LibSpec LibProofs
  LossModel LossSpec LossProofs ChassisModel ChassisSpec ChassisProofs ObjectiveProofs MultiModel DriverModel ClassifyModel WorkModel WorkSpec WorkProofs
  NeighborsModel NeighborsSpec NeighborsProofs BatchProofs BatchLemmas
  TrainModel TrainSpec TrainProofs TrainProofs2.
Local Open Scope R_scope.

(** ** The sampled batch *)
Section Batch.
Variable knn : dict nnval -> list point -> point -> nat -> list (nat * R).
Variable hnsw : nnval -> list point -> point -> nat -> list (nat * R).
Variable dist : dict nnval -> point -> point -> R.
Hypothesis Hsk : sklearn_ok knn dist.

Lemma row_pts_nth train N a : (a < N)%nat -> nth a (map (row_pt train) (seq 0 N)) [] = row_pt train a.
Proof.
  intros Ha. rewrite (nth_indep _ [] (row_pt train O)) by (rewrite map_length, seq_length; auto).
  rewrite map_nth, seq_nth by auto. reflexivity.
Qed.

Lemma nearest_others_of train N c n ans : (c < N)%nat ->
  nearest sq_dist (map (row_pt train) (seq 0 N)) (fun j => j <> c) (row_pt train c) n ans ->
  nearest_others train N c n (fun j => nth j (map fst ans) O).
Proof.
  intros Hc (L & ND & EL & SO & OUT). rewrite map_length, seq_length in EL, OUT.
  assert (IN : forall j, (j < n)%nat -> In (nth j (map fst ans) O, snd (nth j ans (O, 0))) ans).
  { intros j Hj. change O with (fst (O, 0)) at 1. rewrite map_nth, <- surjective_pairing. apply nth_In. lia. }
  assert (DJ : forall j, (j < n)%nat -> snd (nth j ans (O, 0)) = row_dist train train c (nth j (map fst ans) O)).
  { intros j Hj. destruct (EL _ _ (IN j Hj)) as (A & _ & B). rewrite B, row_pts_nth, row_dist_sq; auto. }
  split; [|split; [|split]].
  - intros j Hj. destruct (EL _ _ (IN j Hj)) as (A & B & _). auto.
  - intros i j Hi Hj E. apply (NoDup_nth (map fst ans) O) in E; rewrite ?map_length; auto; lia.
  - intros i j Hij Hj. rewrite <- !DJ by lia. apply sorted_nth; auto; lia.
  - intros a Ha Hac NA j Hj. rewrite <- DJ by auto. rewrite <- (row_dist_sq train train c a eq_refl), <- (row_pts_nth train N a Ha).
    apply (OUT a (nth j (map fst ans) O)); auto. intros I. apply (In_nth _ _ O) in I as (i & Hi & E).
    rewrite map_length, L in Hi. apply (NA i Hi E).
Qed.

Lemma nth_combine_fst (A : list nat) (D : list R) j : (j < List.length (combine A D))%nat ->
  nth j (map fst (combine A D)) O = nth j A O.
Proof.
  revert D j. induction A as [|a A IH]; intros D j Hj; [cbn in Hj; lia|].
  destruct D as [|d D]; [cbn in Hj; lia|]. destruct j; cbn [combine map nth fst]; [reflexivity|]. apply IH. cbn in Hj. lia.
Qed.

Lemma batch_rows en method kw w train targets N n bc drawn :
  lower method = "exact"%string -> euclidean_kw kw -> nn_init en (rows_of train) n method kw = Ok w -> (n + 1 <= N)%nat ->
  dataset train N -> shape targets = [N] -> distinct_rows train N (fun i => i) -> (0 < bc)%nat -> (0 < n)%nat ->
  valid_choice (seq 0 N) bc drawn \/ (N <= bc)%nat ->
  exists idx I, sample_batch knn hnsw w bc N drawn = Ok (idx, I) /\ List.length idx = Nat.min bc N /\ NoDup idx /\
    ((N <= bc)%nat -> idx = seq 0 N) /\
    batch_ok train targets (index_vector idx) (index_array n I) N (Nat.min bc N) n
      (fun x => nth x idx O) (fun x j => nth j (nth x I []) O) /\
    forall x, (x < Nat.min bc N)%nat -> nearest_others train N (nth x idx O) n (fun j => nth j (nth x I []) O).
Proof.
  intros Hm He Hi Hn Dr HT DR Hbc Hn0 VC.
  assert (TW : List.length (nn_train w) = N /\ nn_count w = n).
  { destruct (nn_init_exact _ _ _ _ _ _ Hm Hi) as [rows [Er ->]]. rewrite (rows_of_ok _ _ Dr) in Er. injection Er as <-.
    cbn [nn_train nn_count]. rewrite map_length, seq_length. auto. }
  destruct TW as [TW CW].
  destruct (sample_batch_total knn hnsw w bc drawn) as (idx & I & ES); [rewrite TW; exact VC|rewrite TW, CW; exact Hn|exact Hbc|].
  rewrite TW in ES.
  destruct (sample_batch_rows knn hnsw w bc N drawn idx I VC ES) as (ND & LT & LEN & ALL & _).
  exists idx, I. split; [exact ES|]. split; [exact LEN|]. split; [exact ND|]. split; [exact ALL|].
  destruct (get_batch_nns_spec knn hnsw dist Hsk en (rows_of train) n method kw w idx Hm He Hi) as (rows & Er & SP).
  rewrite (rows_of_ok _ _ Dr) in Er. injection Er as <-. rewrite map_length, seq_length in SP.
  destruct (SP Hn ltac:(intros ->; cbn in LEN; lia) LT) as (I' & D & EG & LI & LD & NE).
  { intros i j Hi' Hj' Hij. rewrite !row_pts_nth by auto. rewrite row_dist_sq by auto. intros Z.
    destruct (DR i j Hi' Hj' Hij) as (f & Hf & NF). apply NF. apply (row_dist_zero train train i j Z f Hf). }
  assert (EI : I' = I).
  { unfold sample_batch in ES. apply bind_ok in ES as (r & Er & ES). injection ES as <- <-.
    rewrite EG in Er. injection Er as <-. reflexivity. }
  subst I'.
  assert (CX : forall x, (x < Nat.min bc N)%nat -> (nth x idx O < N)%nat).
  { intros x Hx. apply LT. apply nth_In. lia. }
  assert (NO : forall x, (x < Nat.min bc N)%nat -> nearest_others train N (nth x idx O) n (fun j => nth j (nth x I []) O)).
  { intros x Hx. specialize (NE x ltac:(lia)). cbn beta in NE. rewrite row_pts_nth in NE by auto.
    pose proof NE as (LC & _). apply nearest_others_of in NE; [|auto].
    assert (EQ : forall j, (j < n)%nat -> nth j (map fst (combine (nth x I []) (nth x D []))) O = nth j (nth x I []) O).
    { intros j Hj. apply nth_combine_fst. lia. }
    destruct NE as (N1 & N2 & N3 & N4). split; [|split; [|split]].
    - intros j Hj. rewrite <- EQ by auto. auto.
    - intros i j Hi1 Hj1. rewrite <- !EQ by auto. auto.
    - intros i j Hij Hj. rewrite <- !EQ by lia. apply N3; auto.
    - intros a Ha Hac NA j Hj. rewrite <- EQ by auto. apply N4; auto. intros i Hi1. rewrite EQ by auto. auto. }
  split; [|exact NO]. split; [exact Dr|]. split; [exact HT|]. split; [lia|]. split; [exact Hn0|].
  split; [cbn [index_vector shape]; congruence|]. split; [intros x Hx; split; [reflexivity|auto]|].
  split; [cbn [index_array shape]; congruence|]. intros x j Hx Hj. split; [reflexivity|]. apply (NO x Hx); auto.
Qed.
End Batch.

(** ** The scale of a training batch *)
Section Regressor.
Variable ls : lsolver.
Hypothesis EX : exact_solver ls.
Variable slogdet : nat -> mat -> R * R.
Variable eps : R.
Variables (gamma : R -> R) (kv : R -> R -> R).

Lemma scale_ok s F K train targets ix nn N b n c q draws t :
  trainable s F train b n -> full_lib s F = Some K -> loo_well_posed (full_noise s F) train b n c q ->
  batch_ok train targets ix nn N b n c q -> full_train_tensors F ix nn train targets = Ok t ->
  exists Kin sc, call_kernel gamma kv s F (tr_pair t) [] = Ok Kin /\
    scale_opt ls (gp_attr s F) draws Kin (tr_nn_targets t) = Ok (Some sc) /\
    scale_used F (lk_cov gamma kv K (feature_count train) (reals s) []) (full_noise s F) train targets b n q sc.
Proof.
  intros (B & (K' & L' & OK) & NF & KI) L WP (D & HT & Hb & Hn & SI & HC & NN) Et.
  rewrite L in L'. injection L' as <-.
  destruct (train_tensors_ok gamma kv s F K train targets ix nn N b n c q B L OK D HT SI HC NN)
    as (t' & Kin & Kc & Et' & EK & EKc & SKi & SKc & ST1 & ST & HKv & HKc & HT1 & HTv).
  rewrite Et in Et'. injection Et' as <-.
  set (k := lk_cov gamma kv K (feature_count train) (reals s) []) in *.
  assert (WPs : well_posed (full_noise s F) train b n q).
  { intros x Hx. destruct (WP x Hx) as [P|(P & Dq & _)]; [left|right]; auto. }
  assert (NS : forall x, (x < b)%nat -> nonsingular n (nbr_matrix k (full_noise s F) train q x)) by (apply well_posed_ns; auto).
  assert (HKx : forall x, (x < b)%nat -> forall i j, (i < n)%nat -> (j < n)%nat ->
     plus_diag (rowmat Kin x) (noise_at (full_noise s F) None x) i j = nbr_matrix k (full_noise s F) train q x i j).
  { intros x Hx i j Hi Hj. unfold nbr_matrix, plus_diag, rowmat. rewrite HKv; auto. }
  assert (NS' : forall x, (x < b)%nat -> nonsingular n (plus_diag (rowmat Kin x) (noise_at (full_noise s F) None x))).
  { intros x Hx. apply (nonsingular_ext n (nbr_matrix k (full_noise s F) train q x)); auto. intros; symmetry; apply HKx; auto. }
  assert (GA : gp_noise (gp_attr s F) = full_noise s F) by reflexivity.
  exists Kin. unfold scale_opt, scale_used.
  change (gp_kind (gp_attr s F)) with (f_kind F). change (gp_scale (gp_attr s F)) with (f_scale F).
  destruct (f_kind F) as [|it|dn it]; [| |contradiction].
  - exists (f_scale F). split; [exact EK|]. split; reflexivity.
  - destruct (c33_formula ls EX (gp_attr s F) it None Kin (tr_nn_targets t) b n KI Hb Hn NF SKi (or_introl ST)) as (sc & Es & Hs).
    { exact NS'. }
    exists sc. split; [exact EK|]. split; [rewrite Es; reflexivity|].
    destruct Hs as (qd & (cc & Hcc & Eq) & ->). exists qd. split; [|reflexivity]. exists cc. split.
    + intros x Hx. apply (solves_ext n (noisy (gp_noise (gp_attr s F)) Kin x)).
      * intros i j Hi Hj. unfold noisy. rewrite GA. apply HKx; auto.
      * intros i Hi. specialize (Hcc x Hx i Hi). etransitivity; [exact Hcc|]. unfold tgt. rewrite ST. apply HTv; auto.
    + rewrite Eq. apply rsum_ext. intros x Hx. unfold dot. apply rsum_ext. intros j Hj. unfold tgt. rewrite ST, HTv; auto.
Qed.

Lemma full_scale_ok s F K train targets ix nn N b n c q draws t :
  trainable s F train b n -> f_bound F = f_attr F -> full_lib s F = Some K -> loo_well_posed (full_noise s F) train b n c q ->
  batch_ok train targets ix nn N b n c q -> full_train_tensors F ix nn train targets = Ok t ->
  exists sc, scale_used F (lk_cov gamma kv K (feature_count train) (reals s) []) (full_noise s F) train targets b n q sc /\
    full_optimize_scale ls gamma kv s F draws (tr_pair t) (tr_nn_targets t) =
    (if Rleb sc 0 then Err ValueError else Ok (with_scale F sc)).
Proof.
  intros TR BA L WP BK Et. pose proof TR as (B & _).
  destruct (scale_ok s F K train targets ix nn N b n c q draws t TR L WP BK Et) as (Kin & sc & EK & ES & SU).
  exists sc. split; [exact SU|]. unfold full_optimize_scale. rewrite EK. cbn [bind]. unfold optimize_scale. rewrite ES. cbn [bind].
  unfold scale_set, check_positive_float. destruct (Rleb sc 0); [reflexivity|]. cbn [bind make gp_scale gp_var_scale]. f_equal.
  unfold full_make, with_scale. cbn [f_attr f_metric f_hetero f_kind f_scale]. rewrite <- B, BA. reflexivity.
Qed.

Lemma others_well_posed m train N b n c q : distinct_rows train N (fun i => i) ->
  (forall x i, (x < b)%nat -> (i < n)%nat -> 0 <= noise_at m None x i) ->
  (forall x, (x < b)%nat -> (c x < N)%nat) ->
  (forall x, (x < b)%nat -> nearest_others train N (c x) n (q x)) -> loo_well_posed m train b n c q.
Proof.
  intros DR NN HC NO x Hx. right. destruct (NO x Hx) as (R & INJ & _). split; [intros; apply NN; auto|]. split.
  - intros i j Hi Hj Hij. apply DR; [apply R; auto|apply R; auto|]. intros E. apply Hij. apply INJ; auto.
  - intros i Hi. destruct (R i Hi) as [R1 R2]. apply DR; auto.
Qed.

Variable knn : dict nnval -> list point -> point -> nat -> list (nat * R).
Variable hnsw : nnval -> list point -> point -> nat -> list (nat * R).
Variable dist : dict nnval -> point -> point -> R.
Hypothesis Hsk : sklearn_ok knn dist.

Lemma train_regressor_fixed opt en method kw w train targets N n bc drawn s F l draws draws' :
  nn_init en (rows_of train) n method kw = Ok w -> dataset train N -> model_fixed s (f_attr F) = Ok true ->
  train_regressor ls slogdet eps gamma kv opt knn hnsw en train targets n bc method kw drawn s F l draws draws' = Ok (s, F, w).
Proof.
  intros Hi D MF. unfold train_regressor. rewrite (row_count_ok _ _ D). cbn [bind]. rewrite Hi. cbn [bind]. rewrite MF. reflexivity.
Qed.

Lemma train_regressor_ok opt en method kw w train targets N n bc drawn s F l draws draws' names x0 bounds tried :
  lower method = "exact"%string -> euclidean_kw kw -> nn_init en (rows_of train) n method kw = Ok w -> (n + 1 <= N)%nat ->
  dataset train N -> shape targets = [N] -> distinct_rows train N (fun i => i) -> (0 < bc)%nat -> (0 < n)%nat ->
  valid_choice (seq 0 N) bc drawn \/ (N <= bc)%nat ->
  model_ok s F -> bounds_ok s F -> positive_bounds s F -> leading_free s (k_ls (m_kernel (f_attr F))) ->
  get_opt_params s (f_attr F) = Ok (names, x0, bounds) -> (f_kind F = FixedScale \/ ~ In "noise"%string names) ->
  trainable s F train (Nat.min bc N) n ->
  (forall x i, (x < Nat.min bc N)%nat -> (i < n)%nat -> 0 <= noise_at (full_noise s F) None x i) ->
  scores_vectors l -> model_fixed s (f_attr F) = Ok false -> returns_best opt s F names bounds tried ->
  exists idx q x s' F' K v sc,
    (* the batch *)
    List.length idx = Nat.min bc N /\ NoDup idx /\
    (forall i, (i < Nat.min bc N)%nat -> (nth i idx O < N)%nat /\ nearest_others train N (nth i idx O) n (q i)) /\
    (* the model of the best point tried *)
    in_box x bounds /\ new_muygps s F names bounds (combine names (map Fin x)) = Ok (s', F') /\
    optimized_model s F (combine names (map Fin x)) s' F' /\
    loo_value gamma kv s' F' l [] train targets (Nat.min bc N) n (fun i => nth i idx O) q v /\
    (exists f,
      (forall y, in_box y bounds -> exists s'' F'' vy, new_muygps s F names bounds (combine names (map Fin y)) = Ok (s'', F'') /\
         loo_value gamma kv s'' F'' l [] train targets (Nat.min bc N) n (fun i => nth i idx O) q vy /\ f (combine names y) = Ok vy) /\
      (forall y, tried f y -> in_box y bounds -> exists vy, f (combine names y) = Ok vy /\ vy <= v)) /\
    (* its scale *)
    full_lib s' F' = Some K /\ trainable s' F' train (Nat.min bc N) n /\
    (forall x i, (x < Nat.min bc N)%nat -> (i < n)%nat -> 0 <= noise_at (full_noise s' F') None x i) /\
    scale_used F' (lk_cov gamma kv K (feature_count train) (reals s') []) (full_noise s' F') train targets (Nat.min bc N) n q sc /\
    train_regressor ls slogdet eps gamma kv opt knn hnsw en train targets n bc method kw drawn s F l draws draws' =
      (if Rleb sc 0 then Err ValueError else Ok (s', with_scale F' sc, w)).
Proof.
  intros Hm He Hi Hn D HT DR Hbc Hn0 VC MO BO PB LF EO SK TR NN LS MF OPT.
  destruct (batch_rows knn hnsw dist Hsk en method kw w train targets N n bc drawn Hm He Hi Hn D HT DR Hbc Hn0 VC)
    as (idx & I & ES & LEN & ND & ALL & BK & NO).
  set (c := fun x => nth x idx O) in *. set (q := fun x j => nth j (nth x I []) O) in *.
  set (b := Nat.min bc N) in *.
  assert (HC : forall x, (x < b)%nat -> (c x < N)%nat).
  { intros x Hx. destruct BK as (_ & _ & _ & _ & _ & HC & _). apply HC; auto. }
  assert (WP : loo_well_posed (full_noise s F) train b n c q) by (apply (others_well_posed _ train N); auto).
  assert (KW : loss_kw_ok []) by (intros p []).
  destruct (tensors_total gamma kv s F train targets (index_vector idx) (index_array n I) N b n c q TR BK) as (t & Et).
  set (obj := obj_fn ls slogdet eps gamma kv s F l [] None draws (tr_pair t) (tr_cross t) (tr_nn_targets t) (tr_targets t)).
  assert (CV := candidate_value ls EX slogdet eps gamma kv s F l [] draws train targets (index_vector idx) (index_array n I) N b n c q
    names x0 bounds t MO BO PB LF EO SK TR WP BK KW LS Et).
  destruct (OPT obj) as (x & BX & EOpt & BEST).
  { intros y BY. destruct (CV y BY) as (s'' & F'' & v & _ & _ & Ev & _). exists v. exact Ev. }
  destruct (CV x BX) as (s' & F' & v & E & O & OV & LV & TR' & WP').
  pose proof TR' as (B' & (K & L & OK) & _).
  pose proof O as (_ & _ & BA & _).
  assert (TT : full_train_tensors F' (index_vector idx) (index_array n I) train targets = Ok t).
  { rewrite <- Et. destruct (candidate_trainable s F names x0 bounds x MO PB EO) with (s' := s') (F' := F') (train := train) (b := b) (n := n)
      as (_ & _ & TT); auto.
    rewrite (in_box_length _ _ BX). apply (names_bounds_length s F names x0); auto. }
  destruct (full_scale_ok s' F' K train targets (index_vector idx) (index_array n I) N b n c q draws' t TR' BA L WP' BK TT)
    as (sc & SU & ESC).
  exists idx, q, x, s', F', K, v, sc.
  split; [exact LEN|]. split; [exact ND|]. split; [intros i Hib; split; [apply HC; exact Hib|apply NO; exact Hib]|]. split; [exact BX|]. split; [exact E|]. split; [exact O|].
  split; [exact LV|]. split.
  { exists obj. split.
    - intros y BY. destruct (CV y BY) as (s'' & F'' & vy & E'' & _ & Ev & LVy & _). exists s'', F'', vy. auto.
    - intros y TY BY. destruct (CV y BY) as (s'' & F'' & vy & E'' & _ & Ev & LVy & _). exists vy. split; [exact Ev|].
      apply (BEST y v vy TY BY OV Ev). }
  split; [exact L|]. split; [exact TR'|]. split.
  { intros y i Hy Hi'. destruct (WP' y Hy) as [P|(P & _)]; [apply Rlt_le|]; apply P; auto. }
  split; [exact SU|].
  unfold train_regressor. rewrite (row_count_ok _ _ D). cbn [bind]. rewrite Hi. cbn [bind]. rewrite MF. cbn [bind]. rewrite ES.
  cbn [bind fst snd]. rewrite Et. cbn [bind]. unfold optimize_call. fold obj. rewrite EOpt, E. cbn [bind fst snd]. rewrite ESC.
  destruct (Rleb sc 0); reflexivity.
Qed.

(** ** Predicting with a trained model *)
Lemma full_kernel_lk s F K d : f_bound F = model_make s (f_attr F) -> full_lib s F = Some K ->
  full_kernel gamma kv s F d = lk_call gamma kv K (reals s) [] d.
Proof.
  intros B L. unfold full_kernel, call_kernel. rewrite B. unfold full_lib, full_deformation in *. cbn [m_kernel model_make].
  destruct (m_kernel (f_attr F)) as [lsc|lsc sm c]; destruct lsc as [n|v|v]; cbn [k_ls] in *; try discriminate;
    injection L as <-; cbn [lk_call over_diffs kernel_make kernel_call]; reflexivity.
Qed.

Lemma regress_indices_ext (m m' : mmodel) ix nn test train targets : mm_gp m = mm_gp m' -> (forall d, mm_kernel m d = mm_kernel m' d) ->
  regress_from_indices ls m ix nn test train targets = regress_from_indices ls m' ix nn test train targets.
Proof.
  intros G H. unfold regress_from_indices. destruct (crosswise_tensor test train ix nn) as [cw|]; cbn [bind]; [|reflexivity].
  destruct (pairwise_tensor train nn) as [pw|]; cbn [bind]; [|reflexivity]. destruct (take targets nn); cbn [bind]; [|reflexivity].
  rewrite !H, G. reflexivity.
Qed.

Lemma noise_stays_homo s F names bounds opt s' F' v : new_muygps s F names bounds opt = Ok (s', F') ->
  full_noise s F = HomoscedasticNoise v -> exists v', full_noise s' F' = HomoscedasticNoise v'.
Proof.
  intros E H. pose proof (new_muygps_form _ _ _ _ _ _ _ E) as EF.
  assert (AT : f_attr F' = model_make s' (move_model (st_next s) (f_attr F))) by (subst F'; reflexivity).
  unfold full_noise in *. rewrite AT. cbn [model_make move_model m_noise]. destruct (m_noise (f_attr F)); cbn in *; try discriminate.
  eauto.
Qed.

Lemma trained_predictions en method kw w s F K v train test targets N M n :
  lower method = "exact"%string -> euclidean_kw kw -> nn_init en (rows_of train) n method kw = Ok w -> (0 < n <= N /\ 0 < M)%nat ->
  dataset test M -> dataset train N -> ndim test = ndim train -> feature_count test = feature_count train ->
  shape targets = [N] -> distinct_rows train N (fun i => i) ->
  f_bound F = model_make s (f_attr F) -> full_lib s F = Some K -> lk_ok K (feature_count train) (reals s) [] ->
  full_noise s F = HomoscedasticNoise v -> 0 <= v -> 0 <= f_var_scale F ->
  exists mean var, regress_any ls knn hnsw (Univariate (full_mm gamma kv s F)) test train w targets = Ok (mean, var) /\
    kriging_predictions (lk_cov gamma kv K (feature_count train) (reals s) []) (full_noise s F) (f_var_scale F)
      test train targets N M n mean var.
Proof.
  intros Hm He Hi Hn D1 D2 ND FC HT DR B L OK HN Hv HS.
  assert (GN : gp_noise (gp_bound s F) = full_noise s F) by (unfold gp_bound; rewrite B; reflexivity).
  assert (NC : no_coincidence [] [n]) by (split; cbn; [lia|intros; lia]).
  destruct (regress_any_nbr gamma kv ls EX knn hnsw dist Hsk en method kw w (gp_bound s F) K (reals s) [] test train targets N M n [])
    as (mean & var & E & S1 & S2 & _ & V); auto.
  { rewrite GN, HN. exact I. }
  { right. split; [|exact DR]. intros x i _ _. rewrite GN, HN. exact Hv. }
  exists mean, var. split.
  { rewrite <- E. unfold regress_any. destruct (row_count test); cbn [bind]; [|reflexivity].
    destruct (get_nns knn hnsw w (rows_of test)); cbn [bind made_regress_from_indices]; [|reflexivity].
    apply regress_indices_ext; [reflexivity|]. intros d. cbn [full_mm mm_kernel]. apply full_kernel_lk; auto. }
  split; [exact S1|]. split; [exact S2|]. rewrite GN in V. exists (nbr knn hnsw w test). intros x Hx.
  destruct (V x Hx) as (V1 & V2 & V3 & V4). split; [exact V1|]. split; [apply (V2 []); apply inb_nil|]. split; [exact V3|exact V4].
Qed.
End Regressor.

(** ** The optimizers *)
Lemma scipy_returns_best minimize s F names x0 bounds (tried : (dict R -> result R) -> list R -> Prop) :
  model_ok s F -> get_opt_params s (f_attr F) = Ok (names, x0, bounds) ->
  (forall f, (forall y, in_box y bounds -> exists v, f (combine names y) = Ok v) ->
     exists x, in_box x bounds /\ minimize (obj_fn_adapter f names) x0 bounds = Ok (map Fin x) /\
       forall y vx vy, tried f y -> in_box y bounds ->
         obj_fn_adapter f names x = Ok vx -> obj_fn_adapter f names y = Ok vy -> vx <= vy) ->
  returns_best (scipy_optimize minimize) s F names bounds tried.
Proof.
  intros MO EO H f T. destruct (H f T) as (x & BX & EM & BEST). exists x. split; [exact BX|]. split.
  - unfold scipy_optimize. rewrite EO. cbn [bind]. rewrite EM. cbn [bind]. rewrite map_length.
    rewrite (in_box_length _ _ BX), (names_bounds_length s F names x0 bounds MO EO), Nat.ltb_irrefl. reflexivity.
  - intros y vx vy TY BY Hx Hy. unfold obj_fn_adapter in BEST.
    specialize (BEST y (- vx) (- vy) TY BY). rewrite Hx, Hy in BEST. cbn [bind] in BEST.
    specialize (BEST eq_refl eq_refl). lra.
Qed.
Lemma bayes_returns_best maximize verbose okw plan s F names x0 bounds (tried : (dict R -> result R) -> list R -> Prop) :
  get_opt_params s (f_attr F) = Ok (names, x0, bounds) -> bayes_plan s F verbose okw = Ok plan ->
  (forall f, (forall y, in_box y bounds -> exists v, f (combine names y) = Ok v) ->
     exists x, in_box x bounds /\ maximize f plan = Ok (combine names (map Fin x)) /\
       forall y vx vy, tried f y -> in_box y bounds -> f (combine names x) = Ok vx -> f (combine names y) = Ok vy -> vy <= vx) ->
  returns_best (fun s F f => bayes_optimize maximize s F f verbose okw) s F names bounds tried.
Proof.
  intros EO EP H f T. destruct (H f T) as (x & BX & EM & BEST). exists x. split; [exact BX|]. split; [|exact BEST].
  unfold bayes_optimize. rewrite EO. cbn [bind]. rewrite EP. cbn [bind]. rewrite EM. reflexivity.
Qed.

(** ** do_regress *)
Section Do.
Variable ls : lsolver.
Hypothesis EX : exact_solver ls.
Variable slogdet : nat -> mat -> R * R.
Variable eps : R.
Variables (gamma : R -> R) (kv : R -> R -> R).
Variable knn : dict nnval -> list point -> point -> nat -> list (nat * R).
Variable hnsw : nnval -> list point -> point -> nat -> list (nat * R).
Variable dist : dict nnval -> point -> point -> R.
Hypothesis Hsk : sklearn_ok knn dist.

Lemma train_and_regress_fixed opt en method kw w test train targets N M n bc drawn s F K l draws draws' v0 :
  lower method = "exact"%string -> euclidean_kw kw -> nn_init en (rows_of train) n method kw = Ok w -> (0 < n <= N /\ 0 < M)%nat ->
  dataset test M -> ndim test = ndim train -> feature_count test = feature_count train ->
  dataset train N -> shape targets = [N] -> distinct_rows train N (fun i => i) ->
  f_bound F = model_make s (f_attr F) -> full_lib s F = Some K -> lk_ok K (feature_count train) (reals s) [] ->
  full_noise s F = HomoscedasticNoise v0 -> 0 <= v0 -> 0 <= f_var_scale F -> model_fixed s (f_attr F) = Ok true ->
  exists mean var,
    train_and_regress ls slogdet eps gamma kv opt knn hnsw en test train targets n bc method kw drawn s F l draws draws' =
      Ok (s, F, w, (mean, var)) /\
    kriging_predictions (lk_cov gamma kv K (feature_count train) (reals s) []) (full_noise s F) (f_var_scale F)
      test train targets N M n mean var.
Proof.
  intros Hm He Hi Hn D1 ND FC D2 HT DR B L OK HN Hv HS MF.
  destruct (trained_predictions ls EX gamma kv knn hnsw dist Hsk en method kw w s F K v0 train test targets N M n)
    as (mean & var & E & P); auto.
  exists mean, var. split; [|exact P]. unfold train_and_regress. rewrite (train_regressor_fixed ls slogdet eps gamma kv knn hnsw opt en method kw w train targets N) by auto.
  cbn [bind]. rewrite E. reflexivity.
Qed.

Lemma train_and_regress_ok opt en method kw w test train targets N M n bc drawn s F l draws draws' names x0 bounds tried v0 :
  lower method = "exact"%string -> euclidean_kw kw -> nn_init en (rows_of train) n method kw = Ok w -> (n + 1 <= N /\ 0 < M)%nat ->
  dataset test M -> ndim test = ndim train -> feature_count test = feature_count train ->
  dataset train N -> shape targets = [N] -> distinct_rows train N (fun i => i) -> (0 < bc)%nat -> (0 < n)%nat ->
  valid_choice (seq 0 N) bc drawn \/ (N <= bc)%nat ->
  model_ok s F -> bounds_ok s F -> positive_bounds s F -> leading_free s (k_ls (m_kernel (f_attr F))) ->
  get_opt_params s (f_attr F) = Ok (names, x0, bounds) -> (f_kind F = FixedScale \/ ~ In "noise"%string names) ->
  trainable s F train (Nat.min bc N) n -> full_noise s F = HomoscedasticNoise v0 -> 0 <= v0 ->
  scores_vectors l -> model_fixed s (f_attr F) = Ok false -> returns_best opt s F names bounds tried ->
  (exists idx q x s' F' K v sc mean var,
    List.length idx = Nat.min bc N /\ NoDup idx /\
    (forall i, (i < Nat.min bc N)%nat -> (nth i idx O < N)%nat /\ nearest_others train N (nth i idx O) n (q i)) /\
    in_box x bounds /\ optimized_model s F (combine names (map Fin x)) s' F' /\
    loo_value gamma kv s' F' l [] train targets (Nat.min bc N) n (fun i => nth i idx O) q v /\
    full_lib s' F' = Some K /\
    scale_used F' (lk_cov gamma kv K (feature_count train) (reals s') []) (full_noise s' F') train targets (Nat.min bc N) n q sc /\ 0 < sc /\
    train_and_regress ls slogdet eps gamma kv opt knn hnsw en test train targets n bc method kw drawn s F l draws draws' =
      Ok (s', with_scale F' sc, w, (mean, var)) /\
    kriging_predictions (lk_cov gamma kv K (feature_count train) (reals s') []) (full_noise s' F') sc test train targets N M n mean var) \/
  train_and_regress ls slogdet eps gamma kv opt knn hnsw en test train targets n bc method kw drawn s F l draws draws' = Err ValueError.
Proof.
  intros Hm He Hi Hn D1 ND FC D2 HT DR Hbc Hn0 VC MO BO PB LF EO SK TR HN Hv LS MF OPT.
  destruct (train_regressor_ok ls EX slogdet eps gamma kv knn hnsw dist Hsk opt en method kw w train targets N n bc drawn s F l draws draws'
    names x0 bounds tried) as (idx & q & x & s' & F' & K & v & sc & LEN & NDI & NO & BX & E & O & LV & _ & L & TR' & NN & SU & ET); auto; try lia.
  { intros. rewrite HN. exact Hv. }
  unfold train_and_regress. rewrite ET. destruct (Rleb sc 0) eqn:ESC; [right; reflexivity|left]. cbn [bind].
  assert (SP : 0 < sc) by (unfold Rleb in ESC; destruct (Rle_dec sc 0); [discriminate|lra]).
  destruct (noise_stays_homo s F names bounds _ s' F' v0 E HN) as (v' & HN').
  destruct TR' as (B' & (K' & L' & OK') & _). rewrite L in L'. injection L' as <-.
  destruct (trained_predictions ls EX gamma kv knn hnsw dist Hsk en method kw w s' (with_scale F' sc) K v' train test targets N M n)
    as (mean & var & EP & P); auto; [lia| |cbn [with_scale f_var_scale]; lra|].
  { specialize (NN 0%nat 0%nat ltac:(lia) ltac:(lia)). rewrite HN' in NN. exact NN. }
  exists idx, q, x, s', F', K, v, sc, mean, var. rewrite EP. cbn [bind].
  split; [exact LEN|]. split; [exact NDI|]. split; [exact NO|]. split; [exact BX|]. split; [exact O|]. split; [exact LV|].
  split; [exact L|]. split; [exact SU|]. split; [exact SP|]. split; [reflexivity|]. exact P.
Qed.
End Do.
