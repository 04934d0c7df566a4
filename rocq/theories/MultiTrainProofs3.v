(** Proofs about training one model per response: the loop, the scales and the convenience functions. *)
From Coq Require Import Lia Lra.
From Verif Require Import Base BaseFacts NdModel NdFacts RSum LinAlgModel LinAlgSpec LinAlgFacts
  GPModel NoiseModel MuyGPSModel MuyGPSProofs GPSpec GPTheorems ScaleSpec ScaleProofs TensorModel TensorSpec TensorProofs
  HyperModel HyperSpec NamedModel NamedSpec NamedProofs KernelModel KernelSpec FlowModel FlowSpec FlowProofs PointwiseSpec LibSpec LibProofs
  LossModel LossSpec LossProofs ChassisModel ChassisSpec ChassisProofs ObjectiveProofs MultiModel MultiSpec MultiProofs DriverModel ClassifyModel ClassifySpec ClassifyProofs UqProofs
  WorkModel WorkSpec WorkProofs WorkLemmas NeighborsModel NeighborsSpec NeighborsProofs BatchProofs BatchLemmas
  TrainModel TrainSpec TrainProofs TrainProofs2 TrainProofs3 UqWorkSpec UqWorkProofs ClassTrainModel ClassTrainSpec ClassTrainProofs
  MultiTrainModel MultiTrainSpec MultiTrainProofs MultiTrainProofs2.
Local Open Scope R_scope.

Lemma trained_later gamma kv tried s F s2 F' s3 l train y b n c q : extends s s2 -> placed s F ->
  trained_on gamma kv tried s F s2 F' l train y b n c q -> extends s2 s3 -> placed s2 F' ->
  trained_on gamma kv tried s F s3 F' l train y b n c q.
Proof.
  intros E1 P1 [T|(MF & names & x0 & bounds & x & v & EO & BX & O' & LV & ALT)] E2 P2; [left; exact T|right].
  split; [exact MF|]. exists names, x0, bounds, x, v. split; [exact EO|]. split; [exact BX|]. split.
  - apply (optimized_between s s F _ s2 F' s3); auto using extends_refl. apply E1.
  - split; [|exact ALT]. apply (later_loo s2 s3); auto.
Qed.

Section Loop.
Variable ls : lsolver.
Hypothesis EX : exact_solver ls.
Variable slogdet : nat -> mat -> R * R.
Variable eps : R.
Variables (gamma : R -> R) (kv : R -> R -> R).
Variables (train targets : nd R) (ix nn : nd Z) (N b n r : nat) (c : nat -> nat) (q : nat -> nat -> nat).
Hypothesis D : dataset train N.
Hypothesis HT : shape targets = [N; r].
Hypothesis Hb : (0 < b)%nat.
Hypothesis Hn : (0 < n)%nat.
Hypothesis N1 : n <> 1%nat.
Hypothesis SI : shape ix = [b].
Hypothesis HC : forall x, (x < b)%nat -> at_ ix [x] = Z.of_nat (c x) /\ (c x < N)%nat.
Hypothesis IM : index_matrix nn b n N q.
Hypothesis WPN : forall m, (forall x i, 0 <= noise_at m None x i) -> loo_well_posed m train b n c q.
Variable opt : store -> full -> (dict R -> result R) -> result (store * full).
Variable tried : (dict R -> result R) -> list R -> Prop.
Variables (l : loss) (draws : nat -> nat -> list nat) (t : train_tensors) (s0 : store).
Hypothesis ML : mean_loss l.

(** What is known about the model trained on response [i]. *)
Definition good (s : store) (F F' : full) (i : nat) : Prop :=
  trained_on gamma kv tried s0 F s F' l train (response targets N i) b n c q /\
  trainable s F' train b n /\ placed s F' /\ loo_well_posed (full_noise s F') train b n c q /\
  full_train_tensors F' ix nn train targets = Ok t /\
  (forall b' , trainable s0 F train b' n -> trainable s F' train b' n) /\
  (forall v, full_noise s0 F = HomoscedasticNoise v -> exists v', full_noise s F' = HomoscedasticNoise v' /\ 0 <= v') /\
  f_kind F' = f_kind F /\ f_scale F' = f_scale F /\ (f_var_scale F = f_scale F -> f_var_scale F' = f_scale F).

Lemma good_later s s' F F' i : extends s0 s -> placed s0 F -> good s F F' i -> extends s s' -> good s' F F' i.
Proof.
  intros E0 P0 (A & B & C & W & T & G & H & K) E. split; [eapply trained_later; eauto|]. split; [apply (later_trainable s s'); auto|].
  split; [intros m Hm; destruct E; specialize (C m Hm); lia|]. split; [rewrite (later_noise s s'); auto|]. split; [exact T|].
  split; [intros b' HB; apply (later_trainable s s'); auto|]. split; [|exact K]. intros v Hv. rewrite (later_noise s s') by auto. exact (H v Hv).
Qed.

Lemma train_one_ok s F i : extends s0 s -> documented s0 F train b n -> full_train_tensors F ix nn train targets = Ok t -> (i < r)%nat ->
  (forall names x0 bounds, get_opt_params s0 (f_attr F) = Ok (names, x0, bounds) -> returns_best opt s F names bounds tried) ->
  exists fixed s' F', model_fixed s (f_attr F) = Ok fixed /\
    (if fixed then Ok (s, F)
     else let! ti := response_tensors t n i in
          optimize_call ls slogdet eps gamma kv opt s F l [] None (draws i) ti) = Ok (s', F') /\
    extends s s' /\ good s' F F' i.
Proof.
  intros E0 DOC Et Hi OPT.
  assert (DOC0 := DOC). destruct DOC0 as (MO & _ & _ & _ & _ & TR0 & NN0). pose proof MO as (MB & MN & MP & _).
  assert (PL : placed s0 F) by exact MP.
  pose proof (later_documented s0 s F E0 PL train b n DOC) as DOCs.
  pose proof DOCs as (MOs & BO & PB & LF & SK & TR & NN).
  assert (PLs : placed s F) by (destruct MOs as (_ & _ & Q & _); exact Q).
  destruct (model_fixed_iff s0 (f_attr F) MB MN) as (fx & MF & HF). exists fx.
  assert (MFs : model_fixed s (f_attr F) = Ok fx) by (rewrite (later_fixed s0 s); auto).
  assert (WP : loo_well_posed (full_noise s F) train b n c q) by (apply WPN; auto).
  destruct fx.
  - exists s, F. split; [exact MFs|]. split; [reflexivity|]. split; [apply extends_refl|].
    split; [left; auto|]. split; [exact TR|]. split; [exact PLs|]. split; [exact WP|]. split; [exact Et|].
    split; [intros b' HB; apply (later_trainable s0 s); auto|]. split; [|auto]. intros v Hv. exists v. rewrite (later_noise s0 s) by auto. split; [exact Hv|].
    specialize (NN0 0%nat 0%nat). rewrite Hv in NN0. exact NN0.
  - rewrite (get_opt_params_eq s0) in HF by auto. destruct (get_opt_params s0 (f_attr F)) as [[[names x0] bounds]|] eqn:EO;
      [|rewrite get_opt_params_eq in EO by auto; discriminate].
    assert (EOs : get_opt_params s (f_attr F) = Ok (names, x0, bounds)) by (rewrite (later_opt_params s0 s); auto).
    destruct (response_candidate ls EX slogdet eps gamma kv train targets ix nn N b n r c q D HT Hb Hn N1 SI HC IM s F l (draws i) i t
      names x0 bounds DOCs WP EOs ML Hi Et) as (ti & Eti & CV).
    set (obj := obj_fn ls slogdet eps gamma kv s F l [] None (draws i) (tr_pair ti) (tr_cross ti) (tr_nn_targets ti) (tr_targets ti)) in *.
    destruct (OPT names x0 bounds eq_refl obj) as (x & BX & EOpt & BEST).
    { intros y BY. destruct (CV y BY) as (s'' & F'' & v & _ & _ & Ev & _). exists v. exact Ev. }
    destruct (CV x BX) as (s' & F' & v & E & O' & OV & LV).
    destruct (new_muygps_next s F names bounds _ s' F' E PLs) as [NX PL'].
    assert (EX' : extends s s') by (apply (optimized_extends s F _ s' F' O'); lia).
    assert (LEN : List.length x = List.length names).
    { rewrite (in_box_length _ _ BX). apply (names_bounds_length s F names x0); auto. }
    destruct (candidate_trainable s F names x0 bounds x MOs PB EOs LEN BX s' F' train b n E O' TR) as (TR' & WP' & TT).
    exists s', F'. split; [exact MFs|]. split.
    { rewrite Eti. cbn [bind]. unfold optimize_call. fold obj. rewrite EOpt. exact E. }
    split; [exact EX'|]. split.
    { right. split; [exact MF|]. exists names, x0, bounds, x, v. split; [exact EO|]. split; [exact BX|].
      split; [apply (optimized_between s0 s F _ s' F' s'); auto using extends_refl; apply EX'|]. split; [exact LV|].
      exists obj. split.
      - intros z BZ. destruct (CV z BZ) as (s'' & F'' & vz & E'' & O'' & Ev & LVz). exists s'', F'', vz.
        destruct (new_muygps_next s F names bounds _ s'' F'' E'' PLs) as [NX'' PL''].
        split; [apply (optimized_between s0 s F _ s'' F'' s''); auto using extends_refl; lia|]. auto.
      - intros z TZ BZ. destruct (CV z BZ) as (s'' & F'' & vz & E'' & O'' & Ev & LVz). exists vz. split; [exact Ev|].
        apply (BEST z v vz TZ BZ OV Ev). }
    split; [exact TR'|]. split; [exact PL'|]. split; [apply WP'; exact WP|]. split; [rewrite TT; exact Et|]. split.
    { intros b' HB. pose proof (later_trainable s0 s F E0 PL train b' n HB) as HBs.
      destruct (candidate_trainable s F names x0 bounds x MOs PB EOs LEN BX s' F' train b' n E O' HBs) as (T' & _). exact T'. }
    split.
    { intros v0 Hv. assert (Hvs : full_noise s F = HomoscedasticNoise v0) by (rewrite (later_noise s0 s); auto).
      destruct (noise_stays_homo s F names bounds _ s' F' v0 E Hvs) as (v' & Hv'). exists v'. split; [exact Hv'|].
      specialize (WP' c q WP 0%nat Hb). rewrite Hv' in WP'. destruct WP' as [P|(P & _)]; [apply Rlt_le|]; apply (P 0%nat Hn). }
    destruct O' as (_ & _ & _ & _ & _ & O1 & O2). split; [exact O1|]. split; [exact O2|]. intros _.
    rewrite (new_muygps_form _ _ _ _ _ _ _ E). reflexivity.
Qed.

Lemma train_each_ok Fs : forall s i, extends s0 s -> (i + List.length Fs <= r)%nat ->
  (forall F, In F Fs -> documented s0 F train b n /\ full_train_tensors F ix nn train targets = Ok t) -> trains opt tried s0 Fs ->
  exists s' Fs', train_each ls slogdet eps gamma kv opt l draws n t i s Fs = Ok (s', Fs') /\ extends s s' /\
    List.length Fs' = List.length Fs /\
    forall j F F', nth_error Fs j = Some F -> nth_error Fs' j = Some F' -> good s' F F' (i + j).
Proof.
  induction Fs as [|F Fs IH]; intros s i E0 Hi DOC OPT.
  - exists s, []. split; [reflexivity|]. split; [apply extends_refl|]. split; [reflexivity|]. intros [|j]; discriminate.
  - destruct (DOC F (or_introl eq_refl)) as [DF TF]. cbn [List.length] in Hi.
    destruct (train_one_ok s F i E0 DF TF ltac:(lia)) as (fx & s1 & F1 & MF & ER & E1 & G1).
    { intros names x0 bounds EO. apply (OPT F s names x0 bounds); auto. left. reflexivity. }
    destruct (IH s1 (S i)) as (s2 & Fs2 & E2 & X2 & L2 & G2).
    { eapply extends_trans; eauto. } { lia. } { intros F2 H2. apply DOC. right. exact H2. }
    { intros F2 s2 names x0 bounds H2. apply OPT. right. exact H2. }
    exists s2, (F1 :: Fs2). split.
    { cbn [train_each]. rewrite MF. cbn [bind]. rewrite ER. cbn [bind fst snd]. rewrite E2. reflexivity. }
    split; [eapply extends_trans; eauto|]. split; [cbn [List.length]; congruence|].
    intros [|j] Fa Fb Ha Hb'; cbn [nth_error] in *.
    + injection Ha as <-. injection Hb' as <-. rewrite Nat.add_0_r. apply (good_later s1 s2); auto.
      * eapply extends_trans; eauto.
      * destruct DF as ((_ & _ & MP & _) & _). exact MP.
    + replace (i + S j)%nat with (S i + j)%nat by lia. eapply G2; eauto.
Qed.

(** The scales. *)
Lemma scales_loop draws' s2 Fs' : forall i, (i + List.length Fs' <= r)%nat ->
  (forall F', In F' Fs' -> trainable s2 F' train b n /\ loo_well_posed (full_noise s2 F') train b n c q /\
     full_train_tensors F' ix nn train targets = Ok t) ->
  exists scs, List.length scs = List.length Fs' /\
    (forall j F' K, nth_error Fs' j = Some F' -> full_lib s2 F' = Some K ->
       scale_used F' (lk_cov gamma kv K (feature_count train) (reals s2) []) (full_noise s2 F') train (response targets N (i + j)) b n q (nth j scs 0)) /\
    if forallb (fun sc => negb (Rleb sc 0)) scs
    then mm_scale_loop ls draws' (tr_pair t) (tr_nn_targets t) i (map (model_of gamma kv s2) Fs') =
      (map (fun e => mkMm (gp_attr s2 (rescaled (fst e) (snd e))) (fun d => call_kernel gamma kv s2 (fst e) d [])) (combine Fs' scs), Ok tt)
    else exists ms, mm_scale_loop ls draws' (tr_pair t) (tr_nn_targets t) i (map (model_of gamma kv s2) Fs') = (ms, Err ValueError).
Proof.
  induction Fs' as [|F' Fs' IH]; intros i Hi G.
  - exists []. split; [reflexivity|]. split; [intros [|j]; discriminate|]. reflexivity.
  - cbn [List.length] in Hi. destruct (G F' (or_introl eq_refl)) as (TR & WP & Et). pose proof TR as (_ & (K & L & _) & _).
    destruct (response_scale ls EX gamma kv train targets ix nn N b n r c q D HT Hb Hn SI HC IM s2 F' K (draws' i) i t TR L WP Et ltac:(lia))
      as (sc & SU & ES).
    destruct (IH (S i) ltac:(lia)) as (scs & LS & SS & SL).
    { intros F2 H2. apply G. right. exact H2. }
    exists (sc :: scs). split; [cbn [List.length]; congruence|]. split.
    { intros [|j] Fj Kj Hj Lj; cbn [nth_error nth] in *.
      - injection Hj as <-. rewrite L in Lj. injection Lj as <-. rewrite Nat.add_0_r. exact SU.
      - replace (i + S j)%nat with (S i + j)%nat by lia. apply SS; auto. }
    cbn [forallb map mm_scale_loop combine]. rewrite ES. destruct (Rleb sc 0); cbn [negb andb].
    + eexists. reflexivity.
    + destruct (forallb (fun sc0 : R => negb (Rleb sc0 0)) scs).
      * rewrite SL. reflexivity.
      * destruct SL as [ms ->]. eexists. reflexivity.
Qed.

Lemma set_scales_combine s2 : forall Fs' scs, List.length scs = List.length Fs' ->
  set_scales Fs' (map (fun e => mkMm (gp_attr s2 (rescaled (fst e) (snd e))) (fun d => call_kernel gamma kv s2 (fst e) d [])) (combine Fs' scs)) =
  map (fun e => rescaled (fst e) (snd e)) (combine Fs' scs).
Proof.
  induction Fs' as [|F Fs' IH]; intros [|sc scs] LN; cbn in LN; try lia; [reflexivity|].
  cbn [combine map set_scales]. rewrite IH by lia. reflexivity.
Qed.
End Loop.
