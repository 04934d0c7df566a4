(** Proofs about training one model per response: one response, then the loop. *)
From Coq Require Import Lia Lra.
From Verif Require Import Base BaseFacts NdModel NdFacts RSum LinAlgModel LinAlgSpec LinAlgFacts
  GPModel NoiseModel MuyGPSModel MuyGPSProofs GPSpec GPTheorems ScaleSpec ScaleProofs TensorModel TensorSpec TensorProofs
  HyperModel HyperSpec NamedModel NamedSpec NamedProofs KernelModel KernelSpec FlowModel FlowSpec FlowProofs PointwiseSpec LibSpec LibProofs
  LossModel LossSpec LossProofs ChassisModel ChassisSpec ChassisProofs ObjectiveProofs MultiModel MultiSpec MultiProofs DriverModel ClassifyModel ClassifySpec ClassifyProofs UqProofs
  WorkModel WorkSpec WorkProofs WorkLemmas NeighborsModel NeighborsSpec NeighborsProofs BatchProofs BatchLemmas
  TrainModel TrainSpec TrainProofs TrainProofs2 TrainProofs3 UqWorkSpec UqWorkProofs ClassTrainModel ClassTrainSpec ClassTrainProofs
  MultiTrainModel MultiTrainSpec MultiTrainProofs.
Local Open Scope R_scope.

Definition column_labels (targets : nd R) (N i : nat) : nd R :=
  mkNd [N; 1%nat] (fun idx => match idx with a :: _ => at_ targets [a; i] | [] => 0 end).

Section One.
Variable ls : lsolver.
Hypothesis EX : exact_solver ls.
Variable slogdet : nat -> mat -> R * R.
Variable eps : R.
Variables (gamma : R -> R) (kv : R -> R -> R).
Variables (train targets : nd R) (ix nn : nd Z) (N b n r : nat) (c : nat -> nat) (q : nat -> nat -> nat).
Hypothesis D : dataset train N.
Hypothesis HT : shape targets = [N; r].
Hypothesis Hb : (0 < b)%nat.
Hypothesis Hn : (0 < n)%nat.
Hypothesis N1 : n <> 1%nat.
Hypothesis SI : shape ix = [b].
Hypothesis HC : forall x, (x < b)%nat -> at_ ix [x] = Z.of_nat (c x) /\ (c x < N)%nat.
Hypothesis IM : index_matrix nn b n N q.

Lemma response_batch i : batch_ok train (response targets N i) ix nn N b n c q.
Proof. split; [exact D|]. split; [reflexivity|]. auto 10. Qed.

Lemma response_ok t i : (i < r)%nat -> shape (tr_targets t) = [b; r] -> shape (tr_nn_targets t) = [b; n; r] ->
  (forall x e, (x < b)%nat -> (e < r)%nat -> at_ (tr_targets t) [x; e] = at_ targets [c x; e]) ->
  (forall x j e, (x < b)%nat -> (j < n)%nat -> (e < r)%nat -> at_ (tr_nn_targets t) [x; j; e] = at_ targets [q x j; e]) ->
  exists ti, response_tensors t n i = Ok ti /\ tr_pair ti = tr_pair t /\ tr_cross ti = tr_cross t /\
    shape (tr_targets ti) = [b; 1%nat] /\ shape (tr_nn_targets ti) = [b; n; 1%nat] /\
    (forall x e, (x < b)%nat -> (e < 1)%nat -> at_ (tr_targets ti) [x; e] = at_ (column_labels targets N i) [c x; e]) /\
    (forall x j e, (x < b)%nat -> (j < n)%nat -> (e < 1)%nat -> at_ (tr_nn_targets ti) [x; j; e] = at_ (column_labels targets N i) [q x j; e]).
Proof.
  intros Hi S1 S2 V1 V2. unfold response_tensors. rewrite S1. rewrite S2.
  destruct (Nat.leb_spec r i); [lia|].
  destruct (column_reshape (tr_nn_targets t) i b n r S2 Hi) as (k & k' & Ek & Er & EQ). rewrite Ek. cbn [bind]. rewrite Er. cbn [bind].
  eexists. split; [reflexivity|]. split; [reflexivity|]. split; [reflexivity|]. split; [reflexivity|].
  cbn [tr_targets tr_nn_targets at_]. split; [apply (reshape_shape _ _ _ Er)|]. split.
  - intros x e Hx He. cbn [column_labels at_]. apply V1; auto.
  - intros x j e Hx Hj He. destruct EQ as [Es Ev]. rewrite Ev.
    + cbn [response_column at_ column_labels]. apply V2; auto.
    + rewrite (reshape_shape _ _ _ Er). apply inb3; auto.
Qed.

(** The loss on the column response is the loss on the vector response. *)
Lemma column_value s F l i v v' K : mean_loss l -> full_lib s F = Some K -> lk_ok K (feature_count train) (reals s) [] ->
  loo_well_posed (full_noise s F) train b n c q ->
  loo_class_value gamma kv eps s F l train (column_labels targets N i) b n 1 c q v ->
  loo_value gamma kv s F l [] train (response targets N i) b n c q v' -> v = v'.
Proof.
  intros ML L OK WP (K1 & score & Lc & E1 & SC & CL & ->) (K2 & mean & var & sc & Lu & E2 & PR & _ & _ & BL & ->).
  rewrite L in E1, E2. injection E1 as <-. injection E2 as <-.
  set (k := lk_cov gamma kv K (feature_count train) (reals s) []) in *.
  assert (NS : forall x, (x < b)%nat -> nonsingular n (nbr_matrix k (full_noise s F) train q x)).
  { apply well_posed_ns; auto. intros x Hx. destruct (WP x Hx) as [P|(P & Dq & _)]; [left|right]; auto. }
  assert (EQ : forall x, (x < b)%nat -> score x 0%nat = mean x).
  { intros x Hx. destruct (PR x Hx) as [PM _].
    specialize (SC x 0%nat Hx ltac:(lia)). refine (kriging_det n _ _ _ _ _ _ _ _ (NS x Hx) _ _ _ SC PM); auto. }
  assert (SL : Some Lc = Some Lu); [|congruence]. rewrite <- CL, <- BL. clear CL BL.
  destruct ML as [-> | ->]; cbn [class_loss batch_loss]; apply (f_equal Some).
  - replace (INR b * INR 1) with (INR b) by (cbn [INR]; ring). apply (f_equal (fun z => z / INR b)).
    apply rsum_ext. intros x Hx. cbn [rsum column_labels at_ response]. rewrite EQ by auto. ring.
  - unfold kw_or. cbn [dget]. apply rsum_ext. intros x Hx. cbn [rsum column_labels at_ response]. rewrite EQ by auto. ring.
Qed.

Lemma response_candidate s F l draws i t names x0 bounds : documented s F train b n -> loo_well_posed (full_noise s F) train b n c q ->
  get_opt_params s (f_attr F) = Ok (names, x0, bounds) -> mean_loss l -> (i < r)%nat ->
  full_train_tensors F ix nn train targets = Ok t ->
  exists ti, response_tensors t n i = Ok ti /\
  forall x, in_box x bounds -> exists s' F' v,
    new_muygps s F names bounds (combine names (map Fin x)) = Ok (s', F') /\
    optimized_model s F (combine names (map Fin x)) s' F' /\
    obj_fn ls slogdet eps gamma kv s F l [] None draws (tr_pair ti) (tr_cross ti) (tr_nn_targets ti) (tr_targets ti) (combine names x) = Ok v /\
    loo_value gamma kv s' F' l [] train (response targets N i) b n c q v.
Proof.
  intros (MO & BO & PB & LF & SK & TR & NN) WP EO ML Hi Et. specialize (SK _ _ _ EO).
  pose proof TR as (BD & (K & L & OK) & _).
  destruct (class_tensors_ok gamma kv s F K train targets ix nn N b n r c q BD L OK D HT SI HC IM)
    as (t0 & _ & _ & Et0 & _ & _ & _ & _ & ST1 & ST & _ & _ & HT1 & HTv).
  rewrite Et in Et0. injection Et0 as <-.
  destruct (response_ok t i Hi ST1 ST HT1 HTv) as (ti & Eti & EP & EC & S1 & S2 & V1 & V2).
  exists ti. split; [exact Eti|]. intros x BOX.
  assert (LEN : List.length x = List.length names).
  { rewrite (in_box_length _ _ BOX). apply (names_bounds_length s F names x0); auto. }
  destruct (objective_is_score ls slogdet eps gamma kv s F names x0 bounds x MO BO BD LF EO LEN BOX SK) as (s' & F' & E & O' & OBJ).
  destruct (candidate_trainable s F names x0 bounds x MO PB EO LEN BOX s' F' train b n E O' TR) as (TR' & WP' & TT).
  pose proof TR' as (B' & (K' & L' & OK') & NF' & KI').
  destruct (class_tensors_ok gamma kv s' F' K' train targets ix nn N b n r c q B' L' OK' D HT SI HC IM)
    as (t0 & Kin & Kc & Et0 & EK & EKc & SKi & SKc & _ & _ & HKv & HKc & _).
  rewrite TT, Et in Et0. injection Et0 as <-. rewrite <- EP in EK. rewrite <- EC in EKc.
  destruct (class_score_of ls EX slogdet eps gamma kv s' F' K' l train (column_labels targets N i) b n 1 c q draws
    (tr_pair ti) (tr_cross ti) (tr_nn_targets ti) (tr_targets ti) Kin Kc) as (v & Ev & Hv); auto.
  { destruct ML as [-> | ->]; discriminate. }
  { destruct ML as [-> | ->]; unfold scores_classes; auto. }
  destruct (score_ok ls EX slogdet eps gamma kv s' F' l [] train (response targets N i) ix nn N b n c q draws) as (tu & vu & Etu & Evu & Hvu); auto.
  { intros p []. }
  { destruct ML as [-> | ->]; discriminate. }
  { destruct ML as [-> | ->]; discriminate. }
  assert (EV : v = vu) by (apply (column_value s' F' l i v vu K'); auto). subst vu.
  exists s', F', v. split; [exact E|]. split; [exact O'|]. split; [rewrite OBJ; exact Ev|exact Hvu].
Qed.

(** The scale of one response. *)
Lemma response_scale s F K draws i t : trainable s F train b n -> full_lib s F = Some K -> loo_well_posed (full_noise s F) train b n c q ->
  full_train_tensors F ix nn train targets = Ok t -> (i < r)%nat ->
  exists sc, scale_used F (lk_cov gamma kv K (feature_count train) (reals s) []) (full_noise s F) train (response targets N i) b n q sc /\
    mm_scale_one ls draws (tr_pair t) (tr_nn_targets t) i (model_of gamma kv s F) =
    (if Rleb sc 0 then Err ValueError
     else Ok (mkMm (gp_attr s (rescaled F sc)) (fun d => call_kernel gamma kv s F d []))).
Proof.
  intros (B & (K' & L' & OK) & NF & KI) L WP Et Hi.
  rewrite L in L'. injection L' as <-.
  destruct (class_tensors_ok gamma kv s F K train targets ix nn N b n r c q B L OK D HT SI HC IM)
    as (t' & Kin & Kc & Et' & EK & EKc & SKi & SKc & ST1 & ST & HKv & HKc & HT1 & HTv).
  rewrite Et in Et'. injection Et' as <-.
  set (k := lk_cov gamma kv K (feature_count train) (reals s) []) in *.
  assert (WPs : well_posed (full_noise s F) train b n q).
  { intros x Hx. destruct (WP x Hx) as [P|(P & Dq & _)]; [left|right]; auto. }
  assert (NS : forall x, (x < b)%nat -> nonsingular n (nbr_matrix k (full_noise s F) train q x)) by (apply well_posed_ns; auto).
  assert (HKx : forall x, (x < b)%nat -> forall i j, (i < n)%nat -> (j < n)%nat ->
     plus_diag (rowmat Kin x) (noise_at (full_noise s F) None x) i j = nbr_matrix k (full_noise s F) train q x i j).
  { intros x Hx a j Ha Hj. unfold nbr_matrix, plus_diag, rowmat. rewrite HKv; auto. }
  assert (NS' : forall x, (x < b)%nat -> nonsingular n (plus_diag (rowmat Kin x) (noise_at (full_noise s F) None x))).
  { intros x Hx. apply (nonsingular_ext n (nbr_matrix k (full_noise s F) train q x)); auto. intros; symmetry; apply HKx; auto. }
  destruct (column_reshape (tr_nn_targets t) i b n r ST Hi) as (kc & k' & Ek & Er & EQ).
  pose proof (reshape_shape _ _ _ Er) as Sk.
  assert (VK : forall x j, (x < b)%nat -> (j < n)%nat -> tgt k' x j = at_ (response targets N i) [q x j]).
  { intros x j Hx Hj. unfold tgt. rewrite Sk. destruct EQ as [_ Ev]. rewrite Ev by (rewrite Sk; apply inb3; auto).
    cbn [response_column at_ response]. apply HTv; auto. }
  assert (SC : exists sc, scale_opt ls (gp_attr s F) draws Kin k' = Ok (Some sc) /\
     scale_used F k (full_noise s F) train (response targets N i) b n q sc).
  { unfold scale_opt, scale_used. change (gp_kind (gp_attr s F)) with (f_kind F). change (gp_scale (gp_attr s F)) with (f_scale F).
    destruct (f_kind F) as [|it|dn it]; [| |contradiction].
    - exists (f_scale F). split; reflexivity.
    - destruct (c33_formula ls EX (gp_attr s F) it None Kin k' b n KI Hb Hn NF SKi (or_intror Sk)) as (sc & Es & Hs).
      { exact NS'. }
      exists sc. split; [rewrite Es; reflexivity|].
      destruct Hs as (qd & (cc & Hcc & Eq) & ->). exists qd. split; [|reflexivity]. exists cc. split.
      + intros x Hx. apply (solves_ext n (noisy (gp_noise (gp_attr s F)) Kin x)).
        * intros a j Ha Hj. unfold noisy. apply HKx; auto.
        * intros a Ha. specialize (Hcc x Hx a Ha). etransitivity; [exact Hcc|]. apply VK; auto.
      + rewrite Eq. apply rsum_ext. intros x Hx. unfold dot. apply rsum_ext. intros j Hj. rewrite VK; auto. }
  destruct SC as (sc & ES & SU). exists sc. split; [exact SU|].
  unfold mm_scale_one, model_of. cbn [mm_kernel mm_gp]. rewrite EK. cbn [bind]. rewrite ST, Ek. cbn [bind]. rewrite Er. cbn [bind]. rewrite ES. cbn [bind].
  unfold scale_set, check_positive_float. destruct (Rleb sc 0); reflexivity.
Qed.
End One.
