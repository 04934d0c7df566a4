(** Proofs about do_classify with one model per class. *)
From Coq Require Import Lia Lra FunctionalExtensionality.
From Verif Require Import Base BaseFacts NdModel NdFacts RSum LinAlgModel LinAlgSpec LinAlgFacts
  GPModel NoiseModel MuyGPSModel MuyGPSProofs GPSpec GPTheorems ScaleSpec ScaleProofs TensorModel TensorSpec TensorProofs
  HyperModel HyperSpec NamedModel NamedSpec NamedProofs KernelModel KernelSpec FlowModel FlowSpec FlowProofs PointwiseSpec LibSpec LibProofs
  LossModel LossSpec LossProofs ChassisModel ChassisSpec ChassisProofs ObjectiveProofs MultiModel MultiSpec MultiProofs DriverModel ClassifyModel ClassifySpec ClassifyProofs UqProofs
  WorkModel WorkSpec WorkProofs WorkLemmas NeighborsModel NeighborsSpec NeighborsProofs BatchProofs BatchLemmas
  TrainModel TrainSpec TrainProofs TrainProofs2 TrainProofs3 UqWorkSpec UqWorkProofs ClassTrainModel ClassTrainSpec ClassTrainProofs
  MultiTrainModel MultiTrainSpec MultiTrainProofs MultiTrainProofs2 MultiTrainProofs3 MultiTrainProofs4
  FlowLemmas ClassifyLemmas BackendModel BackendProofs DeepModel DeepProofs MultiTrainProofs5.
Local Open Scope R_scope.

Section Do.
Variable ls : lsolver.
Hypothesis EX : exact_solver ls.
Variable slogdet : nat -> mat -> R * R.
Variable eps : R.
Variables (gamma : R -> R) (kv : R -> R -> R).
Variable knn : dict nnval -> list point -> point -> nat -> list (nat * R).
Variable hnsw : nnval -> list point -> point -> nat -> list (nat * R).
Variable dist : dict nnval -> point -> point -> R.
Hypothesis Hsk : sklearn_ok knn dist.
Variable opt : store -> full -> (dict R -> result R) -> result (store * full).
Variable tried : (dict R -> result R) -> list R -> Prop.

(** The models answer queries about any rows. *)
Lemma multi_answers ms F k test train labels test_nn N M w q C (D : nat -> Prop) :
  shape test = [M; F] -> shape train = [N; F] -> shape labels = [N; C] -> List.length ms = C -> ms <> [] ->
  (forall i m, nth_error ms i = Some m -> pointwise_kernel F (mm_kernel m) (k i) /\ (exists v, gp_noise (mm_gp m) = HomoscedasticNoise v) /\
     shape (gp_Kout (mm_gp m)) = [] /\ (forall x, (x < M)%nat -> nonsingular w (nbr_matrix (k i) (gp_noise (mm_gp m)) train q x))) ->
  index_matrix test_nn M w N q -> w <> 1%nat ->
  answers (fun ix nn => made_mean_from_indices ls (Multivariate ms) ix nn test train labels) test_nn M w C D
    (fun x c v => forall m, nth_error ms c = Some m ->
       kriging w (nbr_matrix (k c) (gp_noise (mm_gp m)) train q x) (fun j => kcov (k c) test train x (q x j))
         (fun j => at_ labels [q x j; c]) v).
Proof.
  intros St Sx Hl LM NE Hms Hn Hw ix nn kk r Hkk Hq Hr.
  pose proof (query_matrix test_nn ix nn kk M w N q r Hn Hq ltac:(intros i Hi; apply Hr; auto)) as Hnn.
  destruct (target_tensor labels nn N kk w (fun i j => q (r i) j) C Hl Hnn) as (T & ET & ST & HTv).
  assert (HA : forall i m, nth_error ms i = Some m -> forall z a b,
     nbr_matrix (k i) (gp_noise (mm_gp m)) train (fun i j => q (r i) j) z a b = nbr_matrix (k i) (gp_noise (mm_gp m)) train q (r z) a b).
  { intros i m Hi z a b. destruct (Hms i m Hi) as (_ & (v & ->) & _). reflexivity. }
  destruct (torch_multi ls ms F k ix nn test train labels T N M kk w (fun i j => q (r i) j) r C)
    as (cw & pw & p & v & Ecw & Epw & Ep & _ & Sp & _ & Hp & _); auto.
  { rewrite LM. apply le_n. }
  { intros i m Hi. pose proof (HA i m Hi) as HAi. destruct (Hms i m Hi) as (P1 & (v & P2) & P3 & P4). split; [exact P1|]. split; [rewrite P2; exact I|].
    split; [exact P3|]. intros z Hz. apply (nonsingular_ext w (nbr_matrix (k i) (gp_noise (mm_gp m)) train q (r z))); [|apply P4, Hr; auto].
    intros a b _ _. symmetry. apply HAi. }
  { apply Hq. }
  { intros i Hi. split; [apply Hq; auto|apply Hr; auto]. }
  rewrite to_crosswise_eq in Ecw by (unfold ndim; rewrite ?St, ?(proj1 Hq); reflexivity).
  rewrite to_pairwise_eq in Epw by (unfold ndim; rewrite ?Sx, ?(proj1 Hnn); cbn; auto).
  exists p. split.
  { cbn [made_mean_from_indices]. destruct ms as [|m0 ms0]; [contradiction|]. rewrite Ecw. cbn [bind]. rewrite Epw. cbn [bind].
    rewrite ET. cbn [bind]. exact Ep. }
  split; [exact Sp|]. intros i c Hi Hc m Hm. destruct (Hp c m i Hm Hi) as (wv & H1 & H2). exists wv. split; [|exact H2].
  intros a Ha. rewrite <- (H1 a Ha). apply rsum_ext. intros b Hb. rewrite (HA c m Hm). reflexivity.
Qed.

Lemma first_column_classes labels N C lo hi cl q x n : one_hot labels N (S C) lo hi cl -> (0 < n)%nat -> (forall j, (j < n)%nat -> (q x j < N)%nat) ->
  agree_first labels n q x <-> (forall j, (j < n)%nat -> (cl (q x j) = O <-> cl (q x O) = O)).
Proof.
  intros (NE & _ & H) Hn Hq. destruct (H (q x O) (Hq O Hn)) as [_ H0]. unfold agree_first.
  assert (Z : forall j, (j < n)%nat -> (at_ labels [q x j; O] = at_ labels [q x O; O] <-> (cl (q x j) = O <-> cl (q x O) = O))).
  { intros j Hj. destruct (H (q x j) (Hq j Hj)) as [_ H1]. rewrite (H1 O), (H0 O) by lia.
    destruct (cl (q x j)) as [|a], (cl (q x O)) as [|b]; cbn; (split; [intros Z; try (exfalso; congruence); split; intros; try reflexivity; discriminate|]);
      intros [Z1 Z2]; try reflexivity; exfalso; try (specialize (Z1 eq_refl); discriminate); specialize (Z2 eq_refl); discriminate. }
  split; intros A j Hj; apply (Z j Hj); auto.
Qed.

Lemma models_classify en method kw w s Fs test train labels f N M n r lo hi cl :
  lower method = "exact"%string -> euclidean_kw kw -> nn_init en (rows_of train) n method kw = Ok w -> (0 < n <= N /\ 0 < M)%nat -> (1 < n)%nat ->
  shape test = [M; f] -> shape train = [N; f] -> one_hot labels N (S r) lo hi cl -> List.length Fs = S r -> distinct_rows train N (fun i => i) ->
  (forall F, In F Fs -> f_bound F = model_make s (f_attr F) /\ (exists K, full_lib s F = Some K /\ lk_ok K (feature_count train) (reals s) []) /\
     exists v, full_noise s F = HomoscedasticNoise v /\ 0 <= v) ->
  exists out, work_classify_any ls knn hnsw (Multivariate (trained_models gamma kv s Fs)) test train w labels = Ok out /\
    multi_class_predictions gamma kv s Fs test train N M n lo hi cl out.
Proof.
  intros Hm He Hi Hn N1 St Sx OH LF DR H.
  assert (D1 : dataset test M) by (right; eauto). assert (D2 : dataset train N) by (right; eauto).
  assert (FC1 : feature_count test = f) by (unfold feature_count; rewrite St; reflexivity).
  assert (FC2 : feature_count train = f) by (unfold feature_count; rewrite Sx; reflexivity).
  assert (HL : shape labels = [N; S r]) by apply OH.
  destruct (lookup_rows knn hnsw dist Hsk en method kw w test train N M n Hm He Hi Hn D1 D2) as (I & D & EG & CW & IM & NR); [congruence|].
  set (q := nbr knn hnsw w test) in *.
  set (ms := trained_models gamma kv s Fs).
  set (k := fun i => match nth_error Fs i with
     | Some F => match full_lib s F with Some K => lk_cov gamma kv K f (reals s) [] | None => fun _ => 0 end | None => fun _ => 0 end).
  assert (GN : forall F, In F Fs -> gp_noise (gp_bound s F) = full_noise s F).
  { intros F HF. destruct (H F HF) as (B & _). unfold gp_bound. rewrite B. reflexivity. }
  assert (ANS := multi_answers ms f k test train labels (index_array n I) N M n q (S r)
     (fun x => ~ agree_first labels n q x) St Sx HL).
  assert (LM : List.length ms = S r) by (unfold ms, trained_models; rewrite map_length; exact LF).
  specialize (ANS LM). assert (NE : ms <> []) by (intros C; rewrite C in LM; discriminate). specialize (ANS NE).
  assert (MS : forall i m, nth_error ms i = Some m -> pointwise_kernel f (mm_kernel m) (k i) /\ (exists v, gp_noise (mm_gp m) = HomoscedasticNoise v) /\
     shape (gp_Kout (mm_gp m)) = [] /\ (forall x, (x < M)%nat -> nonsingular n (nbr_matrix (k i) (gp_noise (mm_gp m)) train q x))).
  { intros i m E. unfold ms, trained_models in E. rewrite nth_error_map in E. destruct (nth_error Fs i) as [F|] eqn:EF; [|discriminate].
    cbn [option_map] in E. injection E as <-. pose proof (nth_error_In _ _ EF) as HF. destruct (H F HF) as (B & (K & L & OK) & v & HN & Hv).
    cbn [full_mm mm_gp mm_kernel]. rewrite (GN F HF).
    assert (Ek : k i = lk_cov gamma kv K f (reals s) []) by (unfold k; rewrite EF, L; reflexivity). rewrite Ek.
    split.
    { assert (EQ : full_kernel gamma kv s F = lk_call gamma kv K (reals s) []).
      { apply functional_extensionality. intros d. apply full_kernel_lk; auto. }
      rewrite EQ. rewrite <- FC2. apply lk_pointwise; auto. }
    split; [exists v; exact HN|]. split; [reflexivity|]. rewrite <- FC2. apply well_posed_ns; auto.
    apply (sound_well_posed _ test train N); auto. right. split; [|exact DR]. intros x j _ _. rewrite HN. exact Hv. }
  specialize (ANS MS IM ltac:(lia)). destruct n as [|n]; [lia|].
  destruct (classify_value _ labels (index_array (S n) I) N r M n q _ HL IM ltac:(lia) ANS) as (out & Eo & So & V).
  exists out. split. { unfold work_classify_any. rewrite EG. cbn [bind fst]. rewrite CW. exact Eo. }
  split; [rewrite LF; exact So|]. exists q. split; [exact NR|].
  intros c F K x HF L Hx kk. pose proof (nth_error_some _ _ _ HF) as Hc. rewrite LF in Hc.
  assert (HQ : forall j, (j < S n)%nat -> (q x j < N)%nat) by (intros j Hj; apply IM; auto).
  destruct (V x c Hx Hc) as [V1 V2].
  pose proof (first_column_classes labels N r lo hi cl q x (S n) OH ltac:(lia) HQ) as FCC.
  destruct OH as (_ & _ & OH). split.
  - intros A. rewrite V1 by (apply FCC; exact A). destruct (OH (q x O) (HQ O ltac:(lia))) as [_ E]. apply E. exact Hc.
  - intros A. assert (Em : nth_error ms c = Some (full_mm gamma kv s F)) by (unfold ms, trained_models; rewrite nth_error_map, HF; reflexivity).
    specialize (V2 ltac:(intros C; apply A, FCC; exact C) _ Em). cbn [full_mm mm_gp] in V2. rewrite (GN F (nth_error_In _ _ HF)) in V2.
    assert (Ek : k c = kk) by (unfold k, kk; rewrite HF, L, FC2; reflexivity). rewrite Ek in V2.
    destruct V2 as (wv & W1 & W2). exists wv. split; [exact W1|]. rewrite W2. apply rsum_ext. intros j Hj.
    destruct (OH (q x j) (HQ j Hj)) as [_ E]. rewrite (E c Hc). reflexivity.
Qed.

Lemma multi_do_classify en method kw w test train labels f N M n r lo hi cl bc draw s Fs l draws :
  lower method = "exact"%string -> euclidean_kw kw -> nn_init en (rows_of train) n method kw = Ok w -> (n + 1 <= N /\ 0 < M)%nat -> (1 < n)%nat ->
  shape test = [M; f] -> shape train = [N; f] -> distinct_rows train N (fun i => i) -> one_hot labels N (S r) lo hi cl -> lo < hi ->
  (forall j pop c, (c <= List.length pop)%nat -> NoDup pop -> valid_choice pop c (draw j pop c)) -> List.length Fs = S r ->
  (forall F, In F Fs -> (forall b, documented s F train b n) /\ exists v, full_noise s F = HomoscedasticNoise v) ->
  (forall F F', In F Fs -> In F' Fs -> same_tensors F F') ->
  ~ (forall F, In F Fs -> model_fixed s (f_attr F) = Ok true) -> mean_loss l ->
  (exists i, contested train N n cl i) -> (N <= bc)%nat \/ (class_number N cl <= bc)%nat -> trains opt tried s Fs ->
  exists idx q s' Fs' out,
    (0 < List.length idx)%nat /\ contested_batch train N n cl bc idx q /\
    extends s s' /\ List.length Fs' = List.length Fs /\
    (forall i F F', nth_error Fs i = Some F -> nth_error Fs' i = Some F' ->
       trained_on gamma kv tried s F s' F' l train (response labels N i) (List.length idx) n (fun i => nth i idx O) q) /\
    train_and_classify_multi ls slogdet eps gamma kv opt knn hnsw en test train labels n bc method kw draw s Fs l draws = Ok (s', Fs', w, out) /\
    multi_class_predictions gamma kv s' Fs' test train N M n lo hi cl out.
Proof.
  intros Hm He Hi Hn N1 St Sx DR OH LH HD LR DOC SAME NF ML CT CN OPT.
  assert (D : dataset train N) by (right; eauto).
  destruct (multi_classifier_ok ls EX slogdet eps gamma kv knn hnsw dist Hsk opt tried en method kw w train labels N n r lo hi cl bc draw s Fs l draws)
    as (idx & q & s' & Fs' & A & B & C & LF & G & E); auto; [apply Hn| |].
  { intros F b HF. apply (DOC F HF). }
  destruct (models_classify en method kw w s' Fs' test train labels f N M n r lo hi cl) as (out & EO & P); auto; try lia.
  { intros F' HF'. apply in_nth in HF' as (i & HF'). destruct (nth_error_same Fs' Fs i F') as (F & HF); auto.
    destruct (G i F F' HF HF') as (ix & nn & t & _ & (BD & LK & _) & _ & _ & _ & _ & HN & _).
    destruct (DOC F (nth_error_In _ _ HF)) as (_ & v & Hv). split; [exact BD|]. split; [exact LK|]. exact (HN v Hv). }
  exists idx, q, s', Fs', out. split; [exact A|]. split; [exact B|]. split; [exact C|]. split; [exact LF|]. split.
  { intros i F F' HF HF'. destruct (G i F F' HF HF') as (ix & nn & t & T & _). exact T. }
  split; [|exact P]. unfold train_and_classify_multi. rewrite E. cbn [bind]. rewrite EO. reflexivity.
Qed.
End Do.
