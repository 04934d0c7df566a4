(** Proofs about training a classifier from data. *)
From Coq Require Import Lia Lra.
From Verif Require Import Base BaseFacts NdModel NdFacts RSum LinAlgModel LinAlgSpec LinAlgFacts
  GPModel NoiseModel MuyGPSModel MuyGPSProofs GPSpec GPTheorems ScaleSpec ScaleProofs TensorModel TensorSpec TensorProofs
  HyperModel HyperSpec NamedModel NamedSpec NamedProofs KernelModel KernelSpec FlowModel FlowSpec FlowProofs PointwiseSpec LibSpec LibProofs
  LossModel LossSpec LossProofs ChassisModel ChassisSpec ChassisProofs ObjectiveProofs MultiModel DriverModel ClassifyModel ClassifySpec ClassifyProofs UqProofs
  WorkModel WorkSpec WorkProofs WorkLemmas NeighborsModel NeighborsSpec NeighborsProofs BatchProofs BatchLemmas
  TrainModel TrainSpec TrainProofs TrainProofs2 TrainProofs3 UqWorkSpec UqWorkProofs ClassTrainModel ClassTrainSpec.
Local Open Scope R_scope.

Lemma rsum_single n (f : nat -> R) j : (j < n)%nat -> (forall i, (i < n)%nat -> i <> j -> f i = 0) -> rsum n f = f j.
Proof.
  intros Hj H. rewrite (rsum_ext n f (fun i => delta i j * f i)); [apply rsum_delta; auto|]. intros i Hi. unfold delta.
  destruct (Nat.eqb_spec i j) as [->|E]; [ring|]. rewrite H by auto. ring.
Qed.

(** ** Tensors with (N, r) labels *)
Section Score.
Variable ls : lsolver.
Hypothesis EX : exact_solver ls.
Variable slogdet : nat -> mat -> R * R.
Variable eps : R.
Variables (gamma : R -> R) (kv : R -> R -> R).

Lemma class_tensors_ok s F K train labels ix nn N b n r c q :
  f_bound F = model_make s (f_attr F) -> full_lib s F = Some K -> lk_ok K (feature_count train) (reals s) [] ->
  dataset train N -> shape labels = [N; r] ->
  shape ix = [b] -> (forall x, (x < b)%nat -> at_ ix [x] = Z.of_nat (c x) /\ (c x < N)%nat) -> index_matrix nn b n N q ->
  exists t Kin Kc, full_train_tensors F ix nn train labels = Ok t /\
    call_kernel gamma kv s F (tr_pair t) [] = Ok Kin /\ call_kernel gamma kv s F (tr_cross t) [] = Ok Kc /\
    shape Kin = [b; n; n] /\ shape Kc = [b; n] /\ shape (tr_targets t) = [b; r] /\ shape (tr_nn_targets t) = [b; n; r] /\
    (forall x i j, (x < b)%nat -> (i < n)%nat -> (j < n)%nat ->
       at_ Kin [x; i; j] = kcov (lk_cov gamma kv K (feature_count train) (reals s) []) train train (q x i) (q x j)) /\
    (forall x j, (x < b)%nat -> (j < n)%nat ->
       at_ Kc [x; j] = kcov (lk_cov gamma kv K (feature_count train) (reals s) []) train train (c x) (q x j)) /\
    (forall x e, (x < b)%nat -> (e < r)%nat -> at_ (tr_targets t) [x; e] = at_ labels [c x; e]) /\
    (forall x j e, (x < b)%nat -> (j < n)%nat -> (e < r)%nat -> at_ (tr_nn_targets t) [x; j; e] = at_ labels [q x j; e]).
Proof.
  intros B L OK D HT SI HC NN.
  set (k := lk_cov gamma kv K (feature_count train) (reals s) []).
  assert (PK : pointwise_kernel (feature_count train) (lk_call gamma kv K (reals s) []) k) by (apply lk_pointwise; auto).
  destruct (crosswise_kernel (feature_count train) (lk_call gamma kv K (reals s) []) k train train ix nn N N b n c q)
    as (cw & Kc & Ecw & EKc & SKc & HKc); auto.
  destruct (pairwise_kernel (feature_count train) (lk_call gamma kv K (reals s) []) k train nn N b n q PK D eq_refl NN)
    as (pw & Kin & Epw & EK & SKi & HKv).
  destruct (targets_take labels nn N b n q [r] HT NN) as (T & ET & ST & HTv).
  destruct (take_ok labels ix N [r] HT) as (T1 & ET1 & ST1 & HT1).
  { intros idx Hi. rewrite SI in Hi. apply inb_inv1 in Hi as (x & -> & Hx). destruct (HC x Hx) as [-> Hl]. apply in_range_of_nat; auto. }
  destruct (full_deformation F) as [d|] eqn:ED; [|unfold full_lib in L; rewrite ED in L; discriminate].
  destruct (full_lib_call gamma kv s F K Kc cw d B L EKc ED) as (xc & Xc & Cc).
  destruct (full_lib_call gamma kv s F K Kin pw d B L EK ED) as (xp & Xp & Cp).
  exists (mkTrain xc xp T1 T), Kin, Kc. split.
  { unfold full_train_tensors. rewrite ED.
    assert (EC : deform_crosswise d train train ix nn = Ok xc).
    { destruct d; cbn [deform_crosswise]; unfold crosswise_distances; rewrite Ecw; cbn [bind]; auto. }
    assert (EP : deform_pairwise d train nn = Ok xp).
    { destruct d; cbn [deform_pairwise]; unfold pairwise_distances; rewrite Epw; cbn [bind]; auto. }
    rewrite EC. cbn [bind]. rewrite EP. cbn [bind]. rewrite ET. cbn [bind]. rewrite ET1. reflexivity. }
  cbn [tr_pair tr_cross tr_targets tr_nn_targets].
  split; [exact Cp|]. split; [exact Cc|]. split; [exact SKi|]. split; [exact SKc|].
  split; [rewrite ST1, SI; reflexivity|]. split; [exact ST|]. split; [exact HKv|]. split; [exact HKc|]. split.
  - intros x e Hx He. destruct (HC x Hx) as [Ex Hl]. specialize (HT1 [x] [e] (c x)). cbn [app] in HT1. apply HT1.
    + rewrite SI. apply inb1; auto.
    + rewrite Ex. apply selects_of_nat; auto.
  - intros x j e Hx Hj He. apply (HTv x j [e]); auto; try (apply inb1; auto).
Qed.

Lemma class_score_of s F K l train labels b n r c q draws P C T T1 Kin Kc :
  f_bound F = model_make s (f_attr F) -> full_lib s F = Some K -> lk_ok K (feature_count train) (reals s) [] ->
  noise_fits (full_noise s F) b n -> loo_well_posed (full_noise s F) train b n c q -> (0 < b)%nat -> r <> n ->
  (l = CrossEntropy -> (2 <= r)%nat) -> scores_classes l ->
  call_kernel gamma kv s F P [] = Ok Kin -> call_kernel gamma kv s F C [] = Ok Kc ->
  shape Kin = [b; n; n] -> shape Kc = [b; n] -> shape T1 = [b; r] -> shape T = [b; n; r] ->
  (forall x i j, (x < b)%nat -> (i < n)%nat -> (j < n)%nat ->
     at_ Kin [x; i; j] = kcov (lk_cov gamma kv K (feature_count train) (reals s) []) train train (q x i) (q x j)) ->
  (forall x j, (x < b)%nat -> (j < n)%nat ->
     at_ Kc [x; j] = kcov (lk_cov gamma kv K (feature_count train) (reals s) []) train train (c x) (q x j)) ->
  (forall x e, (x < b)%nat -> (e < r)%nat -> at_ T1 [x; e] = at_ labels [c x; e]) ->
  (forall x j e, (x < b)%nat -> (j < n)%nat -> (e < r)%nat -> at_ T [x; j; e] = at_ labels [q x j; e]) ->
  exists v, loo_score ls slogdet eps gamma kv s F l [] draws P C T T1 = Ok v /\
    loo_class_value gamma kv eps s F l train labels b n r c q v.
Proof.
  intros B L OK NF WP Hb HN Hr SL EK EKc SKi SKc ST1 ST HKv HKc HT1 HTv.
  set (k := lk_cov gamma kv K (feature_count train) (reals s) []) in *.
  assert (GB : gp_noise (gp_bound s F) = full_noise s F) by (unfold gp_bound; rewrite B; reflexivity).
  assert (WPs : well_posed (full_noise s F) train b n q).
  { intros x Hx. destruct (WP x Hx) as [Pp|(Pp & Dq & _)]; [left|right]; auto. }
  assert (NS : forall x, (x < b)%nat -> nonsingular n (nbr_matrix k (full_noise s F) train q x)) by (apply well_posed_ns; auto).
  assert (HKx : forall x, (x < b)%nat -> forall i j, (i < n)%nat -> (j < n)%nat ->
     plus_diag (rowmat Kin x) (noise_at (full_noise s F) None x) i j = nbr_matrix k (full_noise s F) train q x i j).
  { intros x Hx i j Hi Hj. unfold nbr_matrix, plus_diag, rowmat. rewrite HKv; auto. }
  assert (NS' : forall x, (x < b)%nat -> nonsingular n (plus_diag (rowmat Kin x) (noise_at (full_noise s F) None x))).
  { intros x Hx. apply (nonsingular_ext n (nbr_matrix k (full_noise s F) train q x)); auto. intros; symmetry; apply HKx; auto. }
  assert (NC : no_coincidence [r] [n]).
  { split; cbn; [lia|]. intros i Hi. destruct i as [|i]; [exact HN|lia]. }
  destruct (gp_mean_total ls EX (full_noise s F) None Kin Kc T b n [r] NF SKi SKc ST NC NS') as (mean & Em & Sm & Hm).
  cbn [app] in Sm.
  assert (PRED : loo_class_scores k (full_noise s F) train labels b n r c q (fun x j => at_ mean [x; j])).
  { intros x j Hx Hj. destruct (Hm x [j] Hx ltac:(apply inb1; auto)) as (wv & Hw & Val). exists wv. split.
    - apply (solves_ext n (plus_diag (rowmat Kin x) (noise_at (full_noise s F) None x))); [apply HKx; auto|].
      intros i Hi. etransitivity; [exact (Hw i Hi)|]. unfold rowvec. apply HKc; auto.
    - rewrite Val. unfold dot. apply rsum_ext. intros i Hi. rewrite HTv; auto. }
  assert (EM : gp_posterior_mean ls (gp_bound s F) Kin Kc T None = Ok mean).
  { unfold gp_posterior_mean. rewrite GB. exact Em. }
  assert (FIN : forall v' L', class_loss eps l b r (fun x j => at_ labels [c x; j]) (fun x j => at_ mean [x; j]) = Some L' ->
     v' = - L' -> loo_class_value gamma kv eps s F l train labels b n r c q v').
  { intros v' L' EL ->. exists K, (fun x j => at_ mean [x; j]), L'. auto. }
  assert (TE : forall f : R -> R -> R, total [b; r] (fun idx => f (at_ T1 idx) (at_ mean idx)) =
      rsum b (fun x => rsum r (fun j => f (at_ labels [c x; j]) (at_ mean [x; j])))).
  { intros f. cbn [total]. apply rsum_ext. intros x Hx. apply rsum_ext. intros j Hj. rewrite HT1; auto. }
  destruct SL as [-> | [-> | ->]].
  - specialize (Hr eq_refl). eexists. split.
    { unfold loo_score. rewrite EK. cbn [bind]. rewrite EKc. cbn [bind]. rewrite EM. cbn [bind loss_call].
      rewrite (cross_entropy_value eps mean T1 b r Sm ST1 Hr Hb). cbn [bind]. reflexivity. }
    eapply FIN; [reflexivity|]. f_equal. rewrite <- rsum_opp. apply rsum_ext. intros x Hx. rewrite <- rsum_opp. apply rsum_ext. intros j Hj.
    rewrite HT1 by auto. unfold clip. destruct (Rltb 0 (at_ labels [c x; j])); ring.
  - eexists. split.
    { unfold loo_score. rewrite EK. cbn [bind]. rewrite EKc. cbn [bind]. rewrite EM. cbn [bind loss_call].
      cbn [clash has_key existsb dget orb]. rewrite mse_formula by congruence. cbn [bind]. reflexivity. }
    eapply FIN; [reflexivity|]. rewrite Sm. rewrite nprod2, mult_INR. do 2 f_equal.
    unfold residual_sq. apply (TE (fun y p => (p - y) ^ 2)).
  - eexists. split.
    { unfold loo_score. rewrite EK. cbn [bind]. rewrite EKc. cbn [bind]. rewrite EM. cbn [bind loss_call].
      cbn [clash has_key existsb dget orb]. rewrite huber_formula by congruence. cbn [bind]. reflexivity. }
    eapply FIN; [reflexivity|]. rewrite Sm. f_equal.
    apply (TE (fun y p => huber_entry (3/2) (y - p))).
Qed.

Lemma class_score_ok s F l train labels ix nn N b n r c q draws :
  trainable s F train b n -> loo_well_posed (full_noise s F) train b n c q -> (0 < b)%nat ->
  dataset train N -> shape labels = [N; r] -> (2 <= r)%nat -> r <> n ->
  shape ix = [b] -> (forall x, (x < b)%nat -> at_ ix [x] = Z.of_nat (c x) /\ (c x < N)%nat) -> index_matrix nn b n N q ->
  scores_classes l ->
  exists t v, full_train_tensors F ix nn train labels = Ok t /\
    loo_score ls slogdet eps gamma kv s F l [] draws (tr_pair t) (tr_cross t) (tr_nn_targets t) (tr_targets t) = Ok v /\
    loo_class_value gamma kv eps s F l train labels b n r c q v.
Proof.
  intros (B & (K & L & OK) & NF & KI) WP Hb D HT Hr HN SI HC NN SL.
  destruct (class_tensors_ok s F K train labels ix nn N b n r c q B L OK D HT SI HC NN)
    as (t & Kin & Kc & Et & EK & EKc & SKi & SKc & ST1 & ST & HKv & HKc & HT1 & HTv).
  destruct (class_score_of s F K l train labels b n r c q draws (tr_pair t) (tr_cross t) (tr_nn_targets t) (tr_targets t) Kin Kc)
    as (v & Ev & Hv); auto.
  exists t, v. auto.
Qed.

Lemma class_candidate s F l draws train labels ix nn N b n r c q names x0 bounds t :
  model_ok s F -> bounds_ok s F -> positive_bounds s F -> leading_free s (k_ls (m_kernel (f_attr F))) ->
  get_opt_params s (f_attr F) = Ok (names, x0, bounds) -> (f_kind F = FixedScale \/ ~ In "noise"%string names) ->
  trainable s F train b n -> loo_well_posed (full_noise s F) train b n c q -> (0 < b)%nat ->
  dataset train N -> shape labels = [N; r] -> (2 <= r)%nat -> r <> n ->
  shape ix = [b] -> (forall x, (x < b)%nat -> at_ ix [x] = Z.of_nat (c x) /\ (c x < N)%nat) -> index_matrix nn b n N q ->
  scores_classes l ->
  full_train_tensors F ix nn train labels = Ok t ->
  forall x, in_box x bounds -> exists s' F' v,
    new_muygps s F names bounds (combine names (map Fin x)) = Ok (s', F') /\
    optimized_model s F (combine names (map Fin x)) s' F' /\
    obj_fn ls slogdet eps gamma kv s F l [] None draws (tr_pair t) (tr_cross t) (tr_nn_targets t) (tr_targets t) (combine names x) = Ok v /\
    loo_class_value gamma kv eps s' F' l train labels b n r c q v /\
    trainable s' F' train b n /\ loo_well_posed (full_noise s' F') train b n c q.
Proof.
  intros MO BO PB LF EO SK TR WP Hb D HT Hr HN SI HC NN SL Et x BOX.
  assert (LEN : List.length x = List.length names).
  { rewrite (in_box_length _ _ BOX). apply (names_bounds_length s F names x0); auto. }
  pose proof TR as (BD & _).
  destruct (objective_is_score ls slogdet eps gamma kv s F names x0 bounds x MO BO BD LF EO LEN BOX SK) as (s' & F' & E & O & OBJ).
  destruct (candidate_trainable s F names x0 bounds x MO PB EO LEN BOX s' F' train b n E O TR) as (TR' & WP' & TT).
  destruct (class_score_ok s' F' l train labels ix nn N b n r c q draws) as (t' & v & Et' & Ev & Hv); auto.
  rewrite TT, Et in Et'. injection Et' as <-.
  exists s', F', v. split; [exact E|]. split; [exact O|]. split; [rewrite OBJ; exact Ev|]. auto.
Qed.
End Score.

(** ** The batch *)
Lemma argmax_labels_ok labels N r lo hi cl : one_hot labels N (S r) lo hi cl -> lo < hi ->
  exists classes, argmax_labels labels = Ok classes /\ List.length classes = N /\ integral classes /\
    forall i, (i < N)%nat -> nth i classes 0 = INR (cl i).
Proof.
  intros (_ & SH & H) LH. unfold argmax_labels. rewrite SH. eexists. split; [reflexivity|].
  split; [rewrite map_length, seq_length; reflexivity|].
  assert (A : forall i, (i < N)%nat -> np_argmax r (fun j => at_ labels [i; j]) = cl i).
  { intros i Hi. destruct (H i Hi) as [Hc Hv]. apply (is_argmax_unique (S r) (fun j => at_ labels [i; j])); [apply (np_argmax_spec r)|].
    split; [exact Hc|]. split.
    - intros j Hj. rewrite !Hv by auto. rewrite Nat.eqb_refl. destruct (j =? cl i)%nat; lra.
    - intros j Hj. rewrite !Hv by lia. rewrite Nat.eqb_refl. replace (j =? cl i)%nat with false by (symmetry; apply Nat.eqb_neq; lia). lra. }
  split.
  - intros z Hz. apply in_map_iff in Hz as (i & <- & _). exists (Z.of_nat (np_argmax r (fun j => at_ labels [i; j]))). apply INR_IZR_INZ.
  - intros i Hi. set (f := fun i => INR (np_argmax r (fun j => at_ labels [i; j]))).
    rewrite (nth_indep _ 0 (f O)) by (rewrite map_length, seq_length; auto).
    rewrite (map_nth f), seq_nth by auto. unfold f. rewrite A; auto.
Qed.

Section Train.
Variable ls : lsolver.
Hypothesis EX : exact_solver ls.
Variable slogdet : nat -> mat -> R * R.
Variable eps : R.
Variables (gamma : R -> R) (kv : R -> R -> R).
Variable knn : dict nnval -> list point -> point -> nat -> list (nat * R).
Variable hnsw : nnval -> list point -> point -> nat -> list (nat * R).
Variable dist : dict nnval -> point -> point -> R.
Hypothesis Hsk : sklearn_ok knn dist.

Variables (en : bool) (method : string) (kw : dict nnval) (w : nn_wrapper) (train labels : nd R) (N n r : nat) (lo hi : R) (cl : nat -> nat)
  (bc : nat) (draw : nat -> list nat -> nat -> list nat).
Hypothesis Hm : lower method = "exact"%string.
Hypothesis He : euclidean_kw kw.
Hypothesis Hi : nn_init en (rows_of train) n method kw = Ok w.
Hypothesis Hn : (n + 1 <= N)%nat.
Hypothesis Hn0 : (0 < n)%nat.
Hypothesis D : dataset train N.
Hypothesis DR : distinct_rows train N (fun i => i).
Hypothesis OH : one_hot labels N (S r) lo hi cl.
Hypothesis LH : lo < hi.
Hypothesis HD : forall j pop c, (c <= List.length pop)%nat -> NoDup pop -> valid_choice pop c (draw j pop c).

Lemma unique_classes classes : List.length classes = N -> (forall i, (i < N)%nat -> nth i classes 0 = INR (cl i)) ->
  List.length (nodup Req_EM_T classes) = class_number N cl.
Proof.
  intros HL HV. unfold class_number.
  assert (E : classes = map INR (map cl (seq 0 N))).
  { apply (nth_ext _ _ 0 0); [rewrite !map_length, seq_length; exact HL|]. intros i Hx. rewrite HL in Hx. rewrite HV by auto.
    rewrite map_map. rewrite (nth_indep _ 0 (INR (cl O))) by (rewrite map_length, seq_length; auto).
    rewrite (map_nth (fun a => INR (cl a))), seq_nth by auto. reflexivity. }
  rewrite E. clear. induction (map cl (seq 0 N)) as [|a l IH]; [reflexivity|]. cbn [map nodup].
  destruct (in_dec Req_EM_T (INR a) (map INR l)) as [I|I]; destruct (in_dec Nat.eq_dec a l) as [J|J]; cbn [List.length]; auto.
  - exfalso. apply J. apply in_map_iff in I as (b & E & I). apply INR_eq in E. subst. exact I.
  - exfalso. apply I. apply in_map. exact J.
Qed.

Lemma class_batch : exists classes idx nns, argmax_labels labels = Ok classes /\
  get_balanced_batch knn hnsw w classes bc draw = Ok (idx, nns) /\ List.length nns = List.length idx /\
  contested_batch train N n cl bc idx (fun x j => nth j (nth x nns []) O) /\
  ((exists i, contested train N n cl i) -> (N <= bc)%nat \/ (class_number N cl <= bc)%nat -> (0 < List.length idx)%nat).
Proof.
  destruct (argmax_labels_ok labels N r lo hi cl OH LH) as (classes & EC & LC & IC & HV).
  destruct (calibration knn hnsw dist Hsk en method kw w train N n classes bc draw) as (idx & nns & EB & NDi & LB & LN & HB); auto.
  exists classes, idx, nns. split; [exact EC|]. split; [exact EB|]. split; [exact LN|]. split.
  { split; [exact NDi|]. split; [exact LB|]. intros x Hx. destruct (HB x Hx) as (B1 & B2 & i & j & Hi' & Hj & NE).
    split; [exact B1|]. split; [exact B2|]. exists i, j. split; [exact Hi'|]. split; [exact Hj|]. intros C. apply NE.
    destruct B2 as (B2 & _). rewrite !HV by (apply B2; auto). rewrite C. reflexivity. }
  intros (i & Hlt & CT) CN.
  destruct (balanced_sizes knn hnsw _ _ _ _ _ _ EB) as [G1 G2]. rewrite LC in G1.
  assert (NB : neighbourhood knn hnsw w i (nn_of knn hnsw w i)) by (apply neighbourhood_iff; auto).
  destruct (neighbourhood_others knn hnsw dist Hsk en method kw w train N n i _ Hm He Hi Hn D DR Hlt NB) as [NO LL].
  destruct (CT _ NO) as (a & a' & Ha & Ha' & NE).
  assert (MX : mixed classes (nn_of knn hnsw w i)).
  { exists (nth a (nn_of knn hnsw w i) O), (nth a' (nn_of knn hnsw w i) O). split; [apply nth_In; lia|]. split; [apply nth_In; lia|].
    destruct NO as (NO & _). rewrite !HV by (apply NO; auto). intros C. apply NE. apply INR_eq. exact C. }
  destruct (le_lt_dec (List.length classes) bc) as [HB1|HB1].
  - destruct (balanced_full knn hnsw _ _ _ _ _ _ EB HB1 IC i ltac:(lia)) as [_ I]. specialize (I (ex_intro _ _ (conj NB MX))).
    destruct idx; [destruct I|cbn; lia].
  - assert (CN' : (class_number N cl <= bc)%nat) by (destruct CN; [lia|auto]).
    assert (DEC : forall j, {mixed classes (nn_of knn hnsw w j)} + {~ mixed classes (nn_of knn hnsw w j)}).
    { intros j. destruct (existsb (fun u => existsb (fun v => negb (Reqb (nth u classes 0) (nth v classes 0))) (nn_of knn hnsw w j)) (nn_of knn hnsw w j)) eqn:E.
      - left. apply existsb_exists in E as (u & Iu & E). apply existsb_exists in E as (v & Iv & E). exists u, v. split; auto. split; auto.
        intros C. rewrite C in E. unfold Reqb in E. destruct (Req_EM_T (nth v classes 0) (nth v classes 0)); [discriminate|congruence].
      - right. intros (u & v & Iu & Iv & NE'). apply not_true_iff_false in E. apply E. apply existsb_exists. exists u. split; auto.
        apply existsb_exists. exists v. split; auto. unfold Reqb. destruct (Req_EM_T _ _); [contradiction|reflexivity]. }
    set (P := fun j => if DEC j then Reqb (nth j classes 0) (INR (cl i)) else false).
    pose proof (balanced_counts knn hnsw _ _ _ _ _ _ EB HB1 HD IC (INR (cl i)) (filter P (seq 0 N))) as BCnt.
    assert (In1 : In (INR (cl i)) classes) by (rewrite <- HV by auto; apply nth_In; lia).
    specialize (BCnt In1 (NoDup_filter _ (seq_NoDup _ _))).
    assert (NZ : (0 < bc / class_number N cl)%nat).
    { apply Nat.div_str_pos. split; [|exact CN']. unfold class_number.
      assert (I : In (cl i) (nodup Nat.eq_dec (map cl (seq 0 N)))) by (apply nodup_In, in_map, in_seq; lia).
      destruct (nodup Nat.eq_dec (map cl (seq 0 N))); [destruct I|cbn; lia]. }
    rewrite (unique_classes classes LC HV) in BCnt.
    assert (CC : (0 < class_count classes (INR (cl i)) idx)%nat).
    { rewrite BCnt.
      - assert (I : In i (filter P (seq 0 N))).
        { apply filter_In. split; [apply in_seq; lia|]. unfold P. destruct (DEC i) as [_|C]; [|contradiction]. rewrite HV by auto.
          unfold Reqb. destruct (Req_EM_T _ _); congruence. }
        destruct (filter P (seq 0 N)); [destruct I|cbn [List.length]; lia].
      - intros j. rewrite filter_In, in_seq, LC. unfold P. split.
        + intros [A B]. split; [lia|]. destruct (DEC j) as [M|]; [|discriminate]. split.
          * unfold Reqb in B. destruct (Req_EM_T _ _); [assumption|discriminate].
          * exists (nn_of knn hnsw w j). split; [apply neighbourhood_iff; split; [apply G1; lia|auto]|exact M].
        + intros (A & B & nn & C1 & C2). split; [lia|]. apply neighbourhood_iff in C1 as (_ & _ & ->). destruct (DEC j) as [_|C]; [|contradiction].
          rewrite B. unfold Reqb. destruct (Req_EM_T _ _); congruence. }
    unfold class_count in CC. destruct idx; [cbn in CC; lia|cbn; lia].
Qed.

Variables (s : store) (F : full) (l : loss) (draws : nat -> list nat) (names : list string) (x0 : list num) (bounds : list (num * num))
  (opt : store -> full -> (dict R -> result R) -> result (store * full)) (tried : (dict R -> result R) -> list R -> Prop).
Hypothesis MO : model_ok s F.
Hypothesis BO : bounds_ok s F.
Hypothesis PB : positive_bounds s F.
Hypothesis LF : leading_free s (k_ls (m_kernel (f_attr F))).
Hypothesis EO : get_opt_params s (f_attr F) = Ok (names, x0, bounds).
Hypothesis SK : f_kind F = FixedScale \/ ~ In "noise"%string names.
Hypothesis TR : forall b, trainable s F train b n.
Hypothesis NN : forall x i, 0 <= noise_at (full_noise s F) None x i.
Hypothesis SL : scores_classes l.
Hypothesis MF : model_fixed s (f_attr F) = Ok false.
Hypothesis R1 : (1 <= r)%nat.
Hypothesis RN : S r <> n.
Hypothesis CT : exists i, contested train N n cl i.
Hypothesis CN : (N <= bc)%nat \/ (class_number N cl <= bc)%nat.
Hypothesis OPT : returns_best opt s F names bounds tried.

Lemma train_classifier_ok : exists idx q x s' F' v,
  (0 < List.length idx)%nat /\ contested_batch train N n cl bc idx q /\
  in_box x bounds /\ new_muygps s F names bounds (combine names (map Fin x)) = Ok (s', F') /\
  optimized_model s F (combine names (map Fin x)) s' F' /\
  loo_class_value gamma kv eps s' F' l train labels (List.length idx) n (S r) (fun i => nth i idx O) q v /\
  (exists f,
    (forall y, in_box y bounds -> exists s'' F'' vy, new_muygps s F names bounds (combine names (map Fin y)) = Ok (s'', F'') /\
       loo_class_value gamma kv eps s'' F'' l train labels (List.length idx) n (S r) (fun i => nth i idx O) q vy /\ f (combine names y) = Ok vy) /\
    (forall y, tried f y -> in_box y bounds -> exists vy, f (combine names y) = Ok vy /\ vy <= v)) /\
  (forall b, trainable s' F' train b n) /\
  (forall x i, (i < n)%nat -> 0 <= noise_at (full_noise s' F') None x i) /\
  train_classifier ls slogdet eps gamma kv opt knn hnsw en train labels n bc method kw draw s F l draws = Ok (s', F', w).
Proof.
  destruct class_batch as (classes & idx & nns & EC & EB & LN & GB & POS). specialize (POS CT CN).
  set (q := fun x j => nth j (nth x nns []) O) in *. set (c := fun i => nth i idx O) in *. set (b := List.length idx) in *.
  pose proof GB as (NDi & LB & HB).
  assert (WPall : forall b', (forall x, (x < b')%nat -> (c x < N)%nat /\ nearest_others train N (c x) n (q x)) -> loo_well_posed (full_noise s F) train b' n c q).
  { intros b' H. apply (others_well_posed _ train N); auto; intros x Hx; apply H; auto. }
  assert (WP : loo_well_posed (full_noise s F) train b n c q).
  { apply WPall. intros x Hx. destruct (HB x Hx) as (A & B & _). auto. }
  assert (SI : shape (index_vector idx) = [b]) by reflexivity.
  assert (HC : forall x, (x < b)%nat -> at_ (index_vector idx) [x] = Z.of_nat (c x) /\ (c x < N)%nat).
  { intros x Hx. split; [reflexivity|]. apply HB; auto. }
  assert (IM : index_matrix (index_array n nns) b n N q).
  { split; [cbn; rewrite LN; reflexivity|]. intros x j Hx Hj. split; [reflexivity|]. destruct (HB x Hx) as (_ & (B & _) & _). apply B; auto. }
  assert (SH : shape labels = [N; S r]) by apply OH.
  destruct (TR b) as (B & (K & L & OK) & _).
  destruct (class_tensors_ok gamma kv s F K train labels (index_vector idx) (index_array n nns) N b n (S r) c q B L OK D SH SI HC IM)
    as (t & _ & _ & Et & _).
  set (obj := obj_fn ls slogdet eps gamma kv s F l [] None draws (tr_pair t) (tr_cross t) (tr_nn_targets t) (tr_targets t)).
  assert (CV := class_candidate ls EX slogdet eps gamma kv s F l draws train labels (index_vector idx) (index_array n nns) N b n (S r) c q
    names x0 bounds t MO BO PB LF EO SK (TR b) WP POS D SH ltac:(lia) RN SI HC IM SL Et).
  destruct (OPT obj) as (x & BX & EOpt & BEST).
  { intros y BY. destruct (CV y BY) as (s'' & F'' & v & _ & _ & Ev & _). exists v. exact Ev. }
  destruct (CV x BX) as (s' & F' & v & E & O & OV & LV & TR' & WP').
  exists idx, q, x, s', F', v.
  split; [exact POS|]. split; [exact GB|]. split; [exact BX|]. split; [exact E|]. split; [exact O|].
  split; [exact LV|]. split.
  { exists obj. split.
    - intros y BY. destruct (CV y BY) as (s'' & F'' & vy & E'' & _ & Ev & LVy & _). exists s'', F'', vy. auto.
    - intros y TY BY. destruct (CV y BY) as (s'' & F'' & vy & E'' & _ & Ev & LVy & _). exists vy. split; [exact Ev|].
      apply (BEST y v vy TY BY OV Ev). }
  assert (LENx : List.length x = List.length names).
  { rewrite (in_box_length _ _ BX). apply (names_bounds_length s F names x0); auto. }
  split.
  { intros b'. destruct (candidate_trainable s F names x0 bounds x MO PB EO LENx BX s' F' train b' n E O (TR b')) as (T' & _). exact T'. }
  split.
  { intros y i Hi'.
    destruct (candidate_trainable s F names x0 bounds x MO PB EO LENx BX s' F' train (S y) n E O (TR (S y))) as (_ & W' & _).
    assert (WY : loo_well_posed (full_noise s F) train (S y) n (fun _ => c 0%nat) (fun _ => q 0%nat)).
    { apply (others_well_posed _ train N); auto; intros z Hz; apply HB; auto. }
    destruct (W' _ _ WY y ltac:(lia)) as [P|(P & _)]; [apply Rlt_le|]; apply P; auto. }
  unfold train_classifier. rewrite Hi. cbn [bind]. rewrite MF. cbn [bind]. rewrite EC. cbn [bind]. rewrite EB.
  cbn [bind fst snd]. rewrite Et. cbn [bind]. unfold optimize_call. fold obj. rewrite EOpt, E. reflexivity.
Qed.
End Train.

(** ** A batch without any row: cross entropy has no value *)
Section Empty.
Variable ls : lsolver.
Hypothesis EX : exact_solver ls.
Variable slogdet : nat -> mat -> R * R.
Variable eps : R.
Variables (gamma : R -> R) (kv : R -> R -> R).

Lemma empty_batch_objective s F draws train labels nn N n r names x0 bounds t x :
  model_ok s F -> bounds_ok s F -> positive_bounds s F -> leading_free s (k_ls (m_kernel (f_attr F))) ->
  get_opt_params s (f_attr F) = Ok (names, x0, bounds) -> (f_kind F = FixedScale \/ ~ In "noise"%string names) ->
  (forall b, trainable s F train b n) -> dataset train N -> shape labels = [N; r] -> r <> n -> shape nn = [O; n] ->
  full_train_tensors F (index_vector []) nn train labels = Ok t -> in_box x bounds ->
  obj_fn ls slogdet eps gamma kv s F CrossEntropy [] None draws (tr_pair t) (tr_cross t) (tr_nn_targets t) (tr_targets t) (combine names x)
    = Err ValueError.
Proof.
  intros MO BO PB LF EO SK TR D HT HN SN Et BOX.
  assert (LEN : List.length x = List.length names).
  { rewrite (in_box_length _ _ BOX). apply (names_bounds_length s F names x0); auto. }
  pose proof (TR 0%nat) as (BD & _).
  destruct (objective_is_score ls slogdet eps gamma kv s F names x0 bounds x MO BO BD LF EO LEN BOX SK) as (s' & F' & E & O' & OBJ).
  destruct (candidate_trainable s F names x0 bounds x MO PB EO LEN BOX s' F' train 0 n E O' (TR 0%nat)) as ((B & (K & L & OK) & NF & KI) & _ & TT).
  assert (SI : shape (index_vector []) = [0%nat]) by reflexivity.
  assert (HC : forall x, (x < 0)%nat -> at_ (index_vector []) [x] = Z.of_nat x /\ (x < N)%nat) by (intros; lia).
  assert (IM : index_matrix nn 0 n N (fun _ _ => 0%nat)) by (split; [exact SN|intros; lia]).
  destruct (class_tensors_ok gamma kv s' F' K train labels (index_vector []) nn N 0 n r (fun x => x) (fun _ _ => 0%nat) B L OK D HT SI HC IM)
    as (t' & Kin & Kc & Et' & EK & EKc & SKi & SKc & ST1 & ST & _).
  rewrite TT, Et in Et'. injection Et' as <-.
  assert (NC : no_coincidence [r] [n]).
  { split; cbn; [lia|]. intros i Hi. destruct i as [|i]; [exact HN|lia]. }
  destruct (gp_mean_total ls EX (full_noise s' F') None Kin Kc (tr_nn_targets t) 0 n [r] NF SKi SKc ST NC) as (mean & Em & Sm & _).
  { intros; lia. }
  assert (GB : gp_noise (gp_bound s' F') = full_noise s' F') by (unfold gp_bound; rewrite B; reflexivity).
  rewrite OBJ. unfold loo_score. rewrite EK. cbn [bind]. rewrite EKc. cbn [bind]. unfold gp_posterior_mean. rewrite GB, Em. cbn [bind loss_call].
  rewrite (cross_entropy_empty eps mean (tr_targets t) r Sm). reflexivity.
Qed.

Variable knn : dict nnval -> list point -> point -> nat -> list (nat * R).
Variable hnsw : nnval -> list point -> point -> nat -> list (nat * R).
Variable dist : dict nnval -> point -> point -> R.
Hypothesis Hsk : sklearn_ok knn dist.

Lemma no_contested_fails en method kw w train labels N n r lo hi cl bc draw s F draws names x0 bounds opt :
  lower method = "exact"%string -> euclidean_kw kw -> nn_init en (rows_of train) n method kw = Ok w -> (n + 1 <= N)%nat -> (0 < n)%nat ->
  dataset train N -> distinct_rows train N (fun i => i) -> one_hot labels N (S r) lo hi cl -> lo < hi ->
  (forall j pop c, (c <= List.length pop)%nat -> NoDup pop -> valid_choice pop c (draw j pop c)) ->
  model_ok s F -> bounds_ok s F -> positive_bounds s F -> leading_free s (k_ls (m_kernel (f_attr F))) ->
  get_opt_params s (f_attr F) = Ok (names, x0, bounds) -> (f_kind F = FixedScale \/ ~ In "noise"%string names) ->
  (forall b, trainable s F train b n) -> model_fixed s (f_attr F) = Ok false -> S r <> n ->
  ((forall i q, (i < N)%nat -> nearest_others train N i n q -> forall a, (a < n)%nat -> cl (q a) = cl (q 0%nat)) \/
   ((bc < N)%nat /\ (bc < class_number N cl)%nat)) ->
  (forall f, (forall y, in_box y bounds -> f (combine names y) = Err ValueError) -> opt s F f = Err ValueError) ->
  train_classifier ls slogdet eps gamma kv opt knn hnsw en train labels n bc method kw draw s F CrossEntropy draws = Err ValueError.
Proof.
  intros Hm He Hi Hn Hn0 D DR OH LH HD MO BO PB LF EO SK TR MF RN SEP OPT.
  destruct (argmax_labels_ok labels N r lo hi cl OH LH) as (classes & EC & LC & IC & HV).
  destruct (calibration knn hnsw dist Hsk en method kw w train N n classes bc draw) as (idx & nns & EB & NDi & LB & LN & HB); auto.
  assert (EI : idx = []).
  { destruct SEP as [SEP|[S1 S2]].
    - destruct idx as [|i0 idx]; [reflexivity|exfalso]. destruct (HB 0%nat ltac:(cbn; lia)) as (B1 & B2 & i & j & Hi' & Hj & NE).
      apply NE. pose proof B2 as (B2' & _). rewrite !HV by (apply B2'; auto). f_equal.
      rewrite (SEP _ _ B1 B2 i Hi'), (SEP _ _ B1 B2 j Hj). reflexivity.
    - destruct idx as [|i0 idx]; [reflexivity|exfalso]. destruct (HB 0%nat ltac:(cbn; lia)) as (B1 & B2 & _). cbn [nth] in B1.
      destruct (balanced_sizes knn hnsw _ _ _ _ _ _ EB) as [G1 G2]. rewrite LC in G1.
      assert (S1' : (bc < List.length classes)%nat) by lia.
      destruct (get_balanced_rows knn hnsw w classes bc draw (i0 :: idx) nns EB HD) as (_ & _ & _ & F2).
      assert (DEC : forall j, {mixed classes (nn_of knn hnsw w j)} + {~ mixed classes (nn_of knn hnsw w j)}).
      { intros j. destruct (existsb (fun u => existsb (fun v => negb (Reqb (nth u classes 0) (nth v classes 0))) (nn_of knn hnsw w j)) (nn_of knn hnsw w j)) eqn:E.
        - left. apply existsb_exists in E as (u & Iu & E). apply existsb_exists in E as (v & Iv & E). exists u, v. split; auto. split; auto.
          intros C. rewrite C in E. unfold Reqb in E. destruct (Req_EM_T (nth v classes 0) (nth v classes 0)); [discriminate|congruence].
        - right. intros (u & v & Iu & Iv & NE'). apply not_true_iff_false in E. apply E. apply existsb_exists. exists u. split; auto.
          apply existsb_exists. exists v. split; auto. unfold Reqb. destruct (Req_EM_T _ _); [contradiction|reflexivity]. }
      set (P := fun j => if DEC j then Reqb (nth j classes 0) (INR (cl i0)) else false).
      assert (In1 : In (INR (cl i0)) classes) by (rewrite <- HV by auto; apply nth_In; lia).
      pose proof (balanced_counts knn hnsw _ _ _ _ _ _ EB S1' HD IC (INR (cl i0)) (filter P (seq 0 N)) In1 (NoDup_filter _ (seq_NoDup _ _))) as BC.
      rewrite (unique_classes N cl classes LC HV) in BC. rewrite Nat.div_small in BC by auto. rewrite Nat.min_0_r in BC.
      assert (Z : class_count classes (INR (cl i0)) (i0 :: idx) = 0%nat).
      { apply BC. intros j. rewrite filter_In, in_seq, LC. unfold P. split.
        + intros [A B]. split; [lia|]. destruct (DEC j) as [M|]; [|discriminate]. split.
          * unfold Reqb in B. destruct (Req_EM_T _ _); [assumption|discriminate].
          * exists (nn_of knn hnsw w j). split; [apply neighbourhood_iff; split; [apply G1; lia|auto]|exact M].
        + intros (A & B & nn & C1 & C2). split; [lia|]. apply neighbourhood_iff in C1 as (_ & _ & ->). destruct (DEC j) as [_|C]; [|contradiction].
          rewrite B. unfold Reqb. destruct (Req_EM_T _ _); congruence. }
      unfold class_count in Z. cbn [filter] in Z. rewrite HV in Z by auto. unfold Reqb at 1 in Z.
      destruct (Req_EM_T _ _) as [_|C]; [discriminate|congruence]. }
  subst idx. destruct nns as [|? ?]; [|discriminate].
  assert (SN : shape (index_array n []) = [0%nat; n]) by reflexivity.
  assert (SH : shape labels = [N; S r]) by apply OH.
  destruct (TR 0%nat) as (B & (K & L & OK) & _).
  destruct (class_tensors_ok gamma kv s F K train labels (index_vector []) (index_array n []) N 0 n (S r) (fun x => x) (fun _ _ => 0%nat) B L OK D SH)
    as (t & _ & _ & Et & _); [reflexivity|intros; lia|split; [exact SN|intros; lia]|].
  unfold train_classifier. rewrite Hi. cbn [bind]. rewrite MF. cbn [bind]. rewrite EC. cbn [bind]. rewrite EB.
  cbn [bind fst snd]. rewrite Et. cbn [bind]. unfold optimize_call. rewrite OPT; [reflexivity|].
  intros y BY. apply (empty_batch_objective s F draws train labels (index_array n []) N n (S r) names x0 bounds t y); auto.
Qed.
End Empty.

(** ** Classifying with the trained model *)
Section Do.
Variable ls : lsolver.
Hypothesis EX : exact_solver ls.
Variable slogdet : nat -> mat -> R * R.
Variable eps : R.
Variables (gamma : R -> R) (kv : R -> R -> R).
Variable knn : dict nnval -> list point -> point -> nat -> list (nat * R).
Variable hnsw : nnval -> list point -> point -> nat -> list (nat * R).
Variable dist : dict nnval -> point -> point -> R.
Hypothesis Hsk : sklearn_ok knn dist.

Lemma mean_indices_ext (m m' : mmodel) ix nn test train targets : mm_gp m = mm_gp m' -> (forall d, mm_kernel m d = mm_kernel m' d) ->
  made_mean_from_indices ls (Univariate m) ix nn test train targets = made_mean_from_indices ls (Univariate m') ix nn test train targets.
Proof.
  intros G H. cbn [made_mean_from_indices]. unfold posterior_mean_from_indices. rewrite G.
  destruct (crosswise_tensor test train ix nn) as [cw|]; cbn [bind]; [|reflexivity].
  destruct (pairwise_tensor train nn) as [pw|]; cbn [bind]; [|reflexivity].
  rewrite !H. reflexivity.
Qed.

Lemma trained_classes en method kw w s F K v train test labels N M n lo hi cl :
  lower method = "exact"%string -> euclidean_kw kw -> nn_init en (rows_of train) n method kw = Ok w -> (0 < n <= N /\ 0 < M)%nat -> n <> 2%nat ->
  dataset test M -> dataset train N -> ndim test = ndim train -> feature_count test = feature_count train ->
  one_hot labels N 2 lo hi cl -> distinct_rows train N (fun i => i) ->
  f_bound F = model_make s (f_attr F) -> full_lib s F = Some K -> lk_ok K (feature_count train) (reals s) [] ->
  full_noise s F = HomoscedasticNoise v -> 0 <= v ->
  exists out, work_classify_any ls knn hnsw (Univariate (full_mm gamma kv s F)) test train w labels = Ok out /\
    class_predictions (lk_cov gamma kv K (feature_count train) (reals s) []) (full_noise s F) test train N M n lo hi cl out.
Proof.
  intros Hm He Hi Hn N2 D1 D2 ND FC OH DR B L OK HN Hv.
  assert (GN : gp_noise (gp_bound s F) = full_noise s F) by (unfold gp_bound; rewrite B; reflexivity).
  destruct (work_classify gamma kv ls EX knn hnsw dist Hsk en method kw w (gp_bound s F) K (reals s) test train labels N M n lo hi cl)
    as (out & q & E & S1 & V); auto.
  { right. exists v. rewrite GN. exact HN. }
  { right. split; [|exact DR]. intros x i _ _. rewrite GN, HN. exact Hv. }
  exists out. split.
  { rewrite <- E. unfold work_classify_any. destruct (get_nns knn hnsw w (rows_of test)) as [g|]; cbn [bind]; [|reflexivity].
    unfold classify_any. destruct (shape labels) as [|a [|b [|c l]]]; auto.
    destruct (a =? 0)%nat; auto. destruct (b =? 0)%nat; auto. destruct (take labels (index_array (nn_count w) (fst g))) as [Lt|]; cbn [bind]; auto.
    destruct (shape Lt) as [|t [|u [|z l]]]; auto. destruct ((u =? 0) && negb (t =? 0))%nat%bool; auto.
    destruct (List.length (where_ t (nonconstant u Lt)) =? 0)%nat; auto.
    rewrite (mean_indices_ext (full_mm gamma kv s F) (lib_model gamma kv (gp_bound s F) K (reals s))); [reflexivity|reflexivity|].
    intros d. cbn [full_mm mm_kernel lib_model]. apply full_kernel_lk; auto. }
  split; [exact S1|]. exists q. rewrite GN in V. exact V.
Qed.
End Do.
