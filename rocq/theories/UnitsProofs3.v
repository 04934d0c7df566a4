(** do_regress in another unit of the responses. *)
From Coq Require Import Lia Lra.
From Verif Require Import Base BaseFacts NdModel NdFacts RSum LinAlgModel LinAlgSpec LinAlgFacts
  GPModel NoiseModel MuyGPSModel MuyGPSProofs GPSpec GPTheorems ScaleSpec ScaleProofs TensorModel TensorSpec TensorProofs
  HyperModel HyperSpec NamedModel NamedSpec NamedProofs KernelModel KernelSpec FlowModel FlowSpec FlowProofs PointwiseSpec LibSpec LibProofs
  LossModel LossSpec LossProofs ChassisModel ChassisSpec ChassisProofs ObjectiveProofs MultiModel DriverModel ClassifyModel WorkModel WorkSpec WorkProofs WorkLemmas
  NeighborsModel NeighborsSpec NeighborsProofs BatchProofs BatchLemmas
  TrainModel TrainSpec TrainProofs TrainProofs2 TrainProofs3 BestProofs UnitsSpec UnitsProofs UnitsProofs2.
Local Open Scope R_scope.

Lemma zero2_dec b n (y : nat -> nat -> R) : (forall x i, (x < b)%nat -> (i < n)%nat -> y x i = 0) \/
  exists x i, (x < b)%nat /\ (i < n)%nat /\ y x i <> 0.
Proof.
  induction b as [|b [IH|(x & i & Hx & Hi & N)]]; [left; intros; lia| |right; exists x, i; split; [lia|auto]].
  destruct (classic_zero n (y b)) as [Z|(i & Hi & N)]; [left|right; exists b, i; split; [lia|auto]].
  intros x i Hx Hi. destruct (Nat.eq_dec x b) as [->|]; [apply Z; auto|apply IH; auto; lia].
Qed.
Lemma ml_scale_zero b n A y s : (forall x i, (x < b)%nat -> (i < n)%nat -> y x i = 0) -> ml_scale b n A y s -> s = 0.
Proof.
  intros Z (q & (c & _ & ->) & ->). rewrite (rsum_ext b _ (fun _ => 0)).
  - rewrite rsum_0. unfold Rdiv. ring.
  - intros x Hx. unfold dot. rewrite (rsum_ext n _ (fun _ => 0)); [apply rsum_0|]. intros i Hi. rewrite Z by auto. ring.
Qed.

Section Do.
Variable ls : lsolver.
Hypothesis EX : exact_solver ls.
Variable slogdet : nat -> mat -> R * R.
Variable eps : R.
Variables (gamma : R -> R) (kv : R -> R -> R).
Variable knn : dict nnval -> list point -> point -> nat -> list (nat * R).
Variable hnsw : nnval -> list point -> point -> nat -> list (nat * R).
Variable dist : dict nnval -> point -> point -> R.
Hypothesis Hsk : sklearn_ok knn dist.

Lemma regress_any_full s F K test train w targets : f_bound F = model_make s (f_attr F) -> full_lib s F = Some K ->
  regress_any ls knn hnsw (Univariate (full_mm gamma kv s F)) test train w targets =
  regress_any ls knn hnsw (Univariate (lib_model gamma kv (gp_bound s F) K (reals s))) test train w targets.
Proof.
  intros B L. unfold regress_any. destruct (row_count test); cbn [bind]; [|reflexivity].
  destruct (get_nns knn hnsw w (rows_of test)); cbn [bind made_regress_from_indices]; [|reflexivity].
  apply regress_indices_ext; [reflexivity|]. intros d. cbn [full_mm mm_kernel lib_model]. apply full_kernel_lk; auto.
Qed.

Lemma do_regress_units opt en method kw w test train targets targets' N M n bc drawn s F l draws draws' names x0 bounds tried v0 a it :
  lower method = "exact"%string -> euclidean_kw kw -> nn_init en (rows_of train) n method kw = Ok w -> (n + 1 <= N /\ 0 < M)%nat ->
  dataset test M -> ndim test = ndim train -> feature_count test = feature_count train ->
  dataset train N -> distinct_rows train N (fun i => i) -> (0 < bc)%nat -> (0 < n)%nat ->
  valid_choice (seq 0 N) bc drawn \/ (N <= bc)%nat ->
  model_ok s F -> bounds_ok s F -> positive_bounds s F -> leading_free s (k_ls (m_kernel (f_attr F))) ->
  get_opt_params s (f_attr F) = Ok (names, x0, bounds) -> ~ In "noise"%string names ->
  trainable s F train (Nat.min bc N) n -> full_noise s F = HomoscedasticNoise v0 -> 0 <= v0 ->
  l = Mse \/ l = Lool \/ l = Looph -> f_kind F = AnalyticScale it ->
  model_fixed s (f_attr F) = Ok false -> returns_best opt s F names bounds tried -> compares_only opt s F names bounds ->
  a <> 0 -> rescaled a targets targets' N [] ->
  forall s' F' w' mean var,
  train_and_regress ls slogdet eps gamma kv opt knn hnsw en test train targets n bc method kw drawn s F l draws draws' = Ok (s', F', w', (mean, var)) ->
  exists mean' var',
    train_and_regress ls slogdet eps gamma kv opt knn hnsw en test train targets' n bc method kw drawn s F l draws draws'
      = Ok (s', with_scale F' (a ^ 2 * f_scale F'), w', (mean', var')) /\
    forall x, (x < M)%nat -> at_ mean' [x] = a * at_ mean [x] /\ at_ var' [x] = a ^ 2 * at_ var [x].
Proof.
  intros Hm He Hi Hn D1 ND FC D DR Hbc Hn0 VC MO BO PB LF EO SK TR HN Hv LS KI MF OPT CMP A RS s' F' w' mean var RUN.
  assert (HT : shape targets = [N]) by apply RS. assert (HT' : shape targets' = [N]) by apply RS.
  destruct (batch_rows knn hnsw dist Hsk en method kw w train targets N n bc drawn Hm He Hi (proj1 Hn) D HT DR Hbc Hn0 VC)
    as (idx & I & ES & LEN & NDI & ALL & BK & NO).
  set (c := fun x => nth x idx O) in *. set (q := fun x j => nth j (nth x I []) O) in *. set (b := Nat.min bc N) in *.
  assert (HC : forall x, (x < b)%nat -> (c x < N)%nat).
  { intros x Hx. destruct BK as (_ & _ & _ & _ & _ & HC & _). apply HC; auto. }
  assert (WP : loo_well_posed (full_noise s F) train b n c q).
  { apply (others_well_posed _ train N); auto. intros; rewrite HN; exact Hv. }
  assert (KW : loss_kw_ok []) by (intros p []).
  assert (LS2 : scores_vectors l) by (destruct LS as [->|[->| ->]]; split; discriminate).
  assert (UK : units_kw l a [] []) by (destruct LS as [->|[->| ->]]; cbn; auto).
  destruct (rescaled_batch a targets targets' N train _ _ b n c q RS BK) as (BK' & TC & TQ).
  destruct (tensors_total gamma kv s F train targets (index_vector idx) (index_array n I) N b n c q TR BK) as (t & Et).
  destruct (tensors_total gamma kv s F train targets' (index_vector idx) (index_array n I) N b n c q TR BK') as (t' & Et').
  set (obj := obj_fn ls slogdet eps gamma kv s F l [] None draws (tr_pair t) (tr_cross t) (tr_nn_targets t) (tr_targets t)).
  set (obj' := obj_fn ls slogdet eps gamma kv s F l [] None draws (tr_pair t') (tr_cross t') (tr_nn_targets t') (tr_targets t')).
  assert (CV := candidate_value ls EX slogdet eps gamma kv s F l [] draws train targets (index_vector idx) (index_array n I) N b n c q
    names x0 bounds t MO BO PB LF EO (or_intror SK) TR WP BK KW LS2 Et).
  assert (CV' := candidate_value ls EX slogdet eps gamma kv s F l [] draws train targets' (index_vector idx) (index_array n I) N b n c q
    names x0 bounds t' MO BO PB LF EO (or_intror SK) TR WP BK' KW LS2 Et').
  destruct (OPT obj) as (x & BX & EOpt & _).
  { intros y BY. destruct (CV y BY) as (s'' & F'' & v & _ & _ & Ev & _). exists v. exact Ev. }
  destruct (CV x BX) as (s1 & F1 & v & E & O & OV & LV & TR1 & WP1).
  pose proof TR1 as (B1 & (K & L & OK) & _). pose proof O as (_ & _ & BA & _ & _ & KI1 & _). rewrite KI in KI1.
  assert (TT : forall tg, full_train_tensors F1 (index_vector idx) (index_array n I) train tg =
                          full_train_tensors F (index_vector idx) (index_array n I) train tg).
  { intros tg. destruct (candidate_trainable s F names x0 bounds x MO PB EO) with (s' := s1) (F' := F1) (train := train) (b := b) (n := n)
      as (_ & _ & TT); auto.
    rewrite (in_box_length _ _ BX). apply (names_bounds_length s F names x0); auto. }
  destruct (scale_units ls EX gamma kv s1 F1 K train targets targets' (index_vector idx) (index_array n I) N b n c q draws' t t' a it)
    as (sc & ESC & ESC' & ML); auto; [rewrite TT; exact Et|rewrite TT; exact Et'|].
  (* the original run *)
  unfold train_and_regress, train_regressor in RUN. rewrite (row_count_ok _ _ D) in RUN. cbn [bind] in RUN. rewrite Hi in RUN. cbn [bind] in RUN.
  rewrite MF in RUN. cbn [bind] in RUN. rewrite ES in RUN. cbn [bind fst snd] in RUN. rewrite Et in RUN. cbn [bind] in RUN.
  unfold optimize_call in RUN. fold obj in RUN. rewrite EOpt, E in RUN. cbn [bind fst snd] in RUN. rewrite ESC in RUN.
  destruct (Rleb sc 0) eqn:EB; [discriminate RUN|]. cbn [bind] in RUN.
  assert (SP : 0 < sc) by (unfold Rleb in EB; destruct (Rle_dec sc 0); [discriminate|lra]).
  assert (NZ : exists x j, (x < b)%nat /\ (j < n)%nat /\ at_ targets [q x j] <> 0).
  { destruct (zero2_dec b n (fun x j => at_ targets [q x j])) as [Z|X]; [|exact X].
    exfalso. pose proof (ml_scale_zero b n _ _ sc Z ML). lra. }
  (* the optimizer makes the same choice *)
  assert (EO' : opt s F obj' = new_muygps s F names bounds (combine names (map Fin x))).
  { rewrite <- EOpt. symmetry.
    assert (UN := objective_units ls EX slogdet eps gamma kv s F l [] [] draws train targets targets' (index_vector idx) (index_array n I) N b n c q
      names x0 bounds t t' a MO BO PB LF EO (or_intror SK) TR WP BK KW KW LS2 A RS UK
      (fun _ => conj (ex_intro _ it KI) NZ) Et Et').
    apply CMP.
    - intros y BY. destruct (UN y BY) as (vy & vy' & E1 & E2 & _). split; [exists vy|exists vy']; auto.
    - intros y z vy vz vy' vz' BY BZ F1' F2' F3' F4'.
      destruct (UN y BY) as (u & u' & E1 & E2 & U). destruct (UN z BZ) as (r & r' & E3 & E4 & U').
      unfold obj, obj' in *. rewrite E1 in F1'. rewrite E2 in F3'. rewrite E3 in F2'. rewrite E4 in F4'.
      injection F1' as <-. injection F2' as <-. injection F3' as <-. injection F4' as <-.
      apply (in_units_order l a b); auto. }
  destruct (noise_stays_homo s F names bounds _ s1 F1 v0 E HN) as (v1 & HN1).
  assert (V1 : 0 <= v1).
  { destruct (WP1 0%nat) as [P|(P & _)]; [unfold b; lia| |]; specialize (P 0%nat Hn0); rewrite HN1 in P; cbn in P; lra. }
  assert (NC : no_coincidence [] [n]) by (split; cbn; [lia|intros; lia]).
  assert (GB : forall z, gp_noise (gp_bound s1 (with_scale F1 z)) = HomoscedasticNoise v1).
  { intros z. rewrite <- HN1. unfold gp_bound. cbn [with_scale f_bound f_attr f_hetero]. rewrite B1. reflexivity. }
  destruct (predictions_units ls EX gamma kv knn hnsw dist Hsk en method kw w (gp_bound s1 (with_scale F1 sc)) (gp_bound s1 (with_scale F1 (a ^ 2 * sc)))
     K (reals s1) test train targets targets' N M n [] a) as (m1 & r1 & m2 & r2 & P1 & P2 & P3); auto; try lia.
  { cbn. lra. }
  { rewrite GB. exact Logic.I. }
  { right. split; [|exact DR]. intros y i _ _. rewrite GB. exact V1. }
  rewrite (regress_any_full s1 (with_scale F1 sc) K test train w targets B1 L), P1 in RUN. cbn [bind] in RUN. injection RUN as <- <- <- <- <-.
  exists m2, r2. split.
  - unfold train_and_regress, train_regressor. rewrite (row_count_ok _ _ D). cbn [bind]. rewrite Hi. cbn [bind]. rewrite MF. cbn [bind]. rewrite ES.
    cbn [bind fst snd]. rewrite Et'. cbn [bind]. unfold optimize_call. fold obj'. rewrite EO', E. cbn [bind fst snd]. rewrite ESC'. cbn [bind].
    rewrite (regress_any_full s1 (with_scale F1 (a ^ 2 * sc)) K test train w targets' B1 L), P2. cbn [bind]. reflexivity.
  - intros y Hy. destruct (P3 y Hy) as [V M']. split; [apply (M' []); apply inb_nil|exact V].
Qed.
End Do.
