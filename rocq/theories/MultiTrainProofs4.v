(** Proofs about make_multivariate_regressor and do_regress with one model per response. *)
From Coq Require Import Lia Lra FunctionalExtensionality.
From Verif Require Import Base BaseFacts NdModel NdFacts RSum LinAlgModel LinAlgSpec LinAlgFacts
  GPModel NoiseModel MuyGPSModel MuyGPSProofs GPSpec GPTheorems ScaleSpec ScaleProofs TensorModel TensorSpec TensorProofs
  HyperModel HyperSpec NamedModel NamedSpec NamedProofs KernelModel KernelSpec FlowModel FlowSpec FlowProofs PointwiseSpec LibSpec LibProofs
  LossModel LossSpec LossProofs ChassisModel ChassisSpec ChassisProofs ObjectiveProofs MultiModel MultiSpec MultiProofs DriverModel ClassifyModel ClassifySpec ClassifyProofs UqProofs
  WorkModel WorkSpec WorkProofs WorkLemmas NeighborsModel NeighborsSpec NeighborsProofs BatchProofs BatchLemmas
  TrainModel TrainSpec TrainProofs TrainProofs2 TrainProofs3 UqWorkSpec UqWorkProofs ClassTrainModel ClassTrainSpec ClassTrainProofs
  MultiTrainModel MultiTrainSpec MultiTrainProofs MultiTrainProofs2 MultiTrainProofs3.
Local Open Scope R_scope.

Lemma nth_error_some {A} (l : list A) i x : nth_error l i = Some x -> (i < List.length l)%nat.
Proof. intros H. apply nth_error_Some. congruence. Qed.
Lemma nth_error_same {A B} (l : list A) (l' : list B) i x : List.length l' = List.length l -> nth_error l i = Some x ->
  exists y, nth_error l' i = Some y.
Proof.
  intros L H. apply nth_error_some in H. destruct (nth_error l' i) as [y|] eqn:E; [eauto|].
  apply nth_error_None in E. lia.
Qed.
Lemma in_nth {A} (l : list A) x : In x l -> exists i, nth_error l i = Some x.
Proof. apply In_nth_error. Qed.

(** All the models are asked whether they are fixed. *)
Lemma all_fixed_ok s Fs : (forall F, In F Fs -> model_ok s F) ->
  exists fx, all_fixed full (fun F => model_fixed s (f_attr F)) Fs = Ok fx /\
    (fx = true <-> forall F, In F Fs -> model_fixed s (f_attr F) = Ok true).
Proof.
  intros H. unfold all_fixed.
  assert (SQ : exists fs, sequence (map (fun F => model_fixed s (f_attr F)) Fs) = Ok fs /\
     (forallb (fun b => b) fs = true <-> forall F, In F Fs -> model_fixed s (f_attr F) = Ok true)).
  { induction Fs as [|F Fs IH]; cbn [map sequence].
    - exists []. split; [reflexivity|]. split; [intros _ F []|reflexivity].
    - destruct IH as (fs & E & I); [intros; apply H; right; auto|].
      destruct (H F (or_introl eq_refl)) as (MB & MN & _). destruct (model_fixed_iff s (f_attr F) MB MN) as (fx & MF & _).
      rewrite MF. cbn [bind]. rewrite E. cbn [bind]. exists (fx :: fs). split; [reflexivity|]. cbn [forallb]. rewrite andb_true_iff, I. split.
      + intros [-> A] F' [<-|In']; auto.
      + intros A. split; [|intros; apply A; right; auto]. specialize (A F (or_introl eq_refl)). congruence. }
  destruct SQ as (fs & -> & I). cbn [bind]. exists (forallb (fun b => b) fs). auto.
Qed.

Lemma forallb_pos scs : forallb (fun sc => negb (Rleb sc 0)) scs = true <-> forall i, (i < List.length scs)%nat -> 0 < nth i scs 0.
Proof.
  rewrite forallb_forall. split.
  - intros H i Hi. specialize (H _ (nth_In scs 0 Hi)). unfold Rleb in H. destruct (Rle_dec (nth i scs 0) 0); [discriminate|lra].
  - intros H z Hz. apply (In_nth _ _ 0) in Hz as (i & Hi & <-). specialize (H i Hi). unfold Rleb. destruct (Rle_dec _ _); [lra|reflexivity].
Qed.

Section Regressor.
Variable ls : lsolver.
Hypothesis EX : exact_solver ls.
Variable slogdet : nat -> mat -> R * R.
Variable eps : R.
Variables (gamma : R -> R) (kv : R -> R -> R).
Variable knn : dict nnval -> list point -> point -> nat -> list (nat * R).
Variable hnsw : nnval -> list point -> point -> nat -> list (nat * R).
Variable dist : dict nnval -> point -> point -> R.
Hypothesis Hsk : sklearn_ok knn dist.
Variable opt : store -> full -> (dict R -> result R) -> result (store * full).

Lemma multi_regressor_refused en method kw train targets n bc drawn s Fs l draws draws' :
  (forall N, shape targets <> [N; List.length Fs]) ->
  train_multivariate_regressor ls slogdet eps gamma kv opt knn hnsw en train targets n bc method kw drawn s Fs l draws draws' = Err ValueError.
Proof.
  intros H. unfold train_multivariate_regressor. destruct (shape targets) as [|a [|b [|c sh]]]; auto.
  destruct (Nat.eqb_spec b (List.length Fs)) as [->|]; [|reflexivity]. exfalso. apply (H a). reflexivity.
Qed.
Lemma multi_classifier_refused en method kw train targets n bc draw s Fs l draws :
  (forall N, shape targets <> [N; List.length Fs]) ->
  train_multivariate_classifier ls slogdet eps gamma kv opt knn hnsw en train targets n bc method kw draw s Fs l draws = Err ValueError.
Proof.
  intros H. unfold train_multivariate_classifier. destruct (shape targets) as [|a [|b [|c sh]]]; auto.
  destruct (Nat.eqb_spec b (List.length Fs)) as [->|]; [|reflexivity]. exfalso. apply (H a). reflexivity.
Qed.

Lemma multi_regressor_fixed en method kw w train targets N n bc drawn s Fs l draws draws' :
  nn_init en (rows_of train) n method kw = Ok w -> shape targets = [N; List.length Fs] -> (forall F, In F Fs -> model_ok s F) ->
  (forall F, In F Fs -> model_fixed s (f_attr F) = Ok true) ->
  train_multivariate_regressor ls slogdet eps gamma kv opt knn hnsw en train targets n bc method kw drawn s Fs l draws draws' = Ok (s, Fs, w).
Proof.
  intros Hi HT MO AF. unfold train_multivariate_regressor. rewrite HT, Nat.eqb_refl. cbn [negb]. rewrite Hi. cbn [bind].
  destruct (all_fixed_ok s Fs MO) as (fx & -> & I). apply I in AF. subst fx. reflexivity.
Qed.
Lemma multi_classifier_fixed en method kw w train targets N n bc draw s Fs l draws :
  nn_init en (rows_of train) n method kw = Ok w -> shape targets = [N; List.length Fs] -> (forall F, In F Fs -> model_ok s F) ->
  (forall F, In F Fs -> model_fixed s (f_attr F) = Ok true) ->
  train_multivariate_classifier ls slogdet eps gamma kv opt knn hnsw en train targets n bc method kw draw s Fs l draws = Ok (s, Fs, w).
Proof.
  intros Hi HT MO AF. unfold train_multivariate_classifier. rewrite HT, Nat.eqb_refl. cbn [negb]. rewrite Hi. cbn [bind].
  destruct (all_fixed_ok s Fs MO) as (fx & -> & I). apply I in AF. subst fx. reflexivity.
Qed.

Variable tried : (dict R -> result R) -> list R -> Prop.

(** Everything known about the trained models; the statement theorems use is a consequence. *)
Lemma multi_regressor_ok en method kw w train targets N n bc drawn s Fs l draws draws' :
  lower method = "exact"%string -> euclidean_kw kw -> nn_init en (rows_of train) n method kw = Ok w -> (n + 1 <= N)%nat -> (1 < n)%nat ->
  dataset train N -> shape targets = [N; List.length Fs] -> distinct_rows train N (fun i => i) -> (0 < bc)%nat ->
  valid_choice (seq 0 N) bc drawn \/ (N <= bc)%nat ->
  (forall F, In F Fs -> documented s F train (Nat.min bc N) n) -> (forall F F', In F Fs -> In F' Fs -> same_tensors F F') ->
  ~ (forall F, In F Fs -> model_fixed s (f_attr F) = Ok true) -> mean_loss l -> trains opt tried s Fs ->
  exists idx q s' Fs' scs,
    List.length idx = Nat.min bc N /\ NoDup idx /\
    (forall i, (i < Nat.min bc N)%nat -> (nth i idx O < N)%nat /\ nearest_others train N (nth i idx O) n (q i)) /\
    extends s s' /\ List.length Fs' = List.length Fs /\ List.length scs = List.length Fs /\
    (forall i F F', nth_error Fs i = Some F -> nth_error Fs' i = Some F' ->
       (exists ix nn t, good gamma kv train targets ix nn N (Nat.min bc N) n (fun i => nth i idx O) q tried l t s s' F F' i) /\
       exists K, full_lib s' F' = Some K /\
         scale_used F' (lk_cov gamma kv K (feature_count train) (reals s') []) (full_noise s' F') train (response targets N i)
           (Nat.min bc N) n q (nth i scs 0)) /\
    train_multivariate_regressor ls slogdet eps gamma kv opt knn hnsw en train targets n bc method kw drawn s Fs l draws draws' =
      (if forallb (fun sc => negb (Rleb sc 0)) scs
       then Ok (s', map (fun e => rescaled (fst e) (snd e)) (combine Fs' scs), w) else Err ValueError).
Proof.
  intros Hm He Hi Hn N1 D HT DR Hbc VC DOC SAME NF ML OPT.
  destruct (batch_rows knn hnsw dist Hsk en method kw w train (response targets N 0) N n bc drawn Hm He Hi Hn D eq_refl DR Hbc ltac:(lia) VC)
    as (idx & I & ES & LEN & ND & ALL & BK & NO).
  set (c := fun x => nth x idx O) in *. set (q := fun x j => nth j (nth x I []) O) in *. set (b := Nat.min bc N) in *.
  pose proof BK as (_ & _ & Hb & Hn0 & SI & HC & IM).
  assert (WPN : forall m, (forall x i, 0 <= noise_at m None x i) -> loo_well_posed m train b n c q).
  { intros m Hm0. apply (others_well_posed _ train N); auto. intros x Hx. apply HC; auto. }
  destruct Fs as [|F0 Fs0] eqn:EFs; [exfalso; apply NF; intros F []|]. rewrite <- EFs in *.
  assert (I0 : In F0 Fs) by (rewrite EFs; left; reflexivity).
  pose proof (DOC F0 I0) as (_ & _ & _ & _ & _ & TR0 & _). pose proof TR0 as (BD0 & (K0 & L0 & OK0) & _).
  destruct (class_tensors_ok gamma kv s F0 K0 train targets (index_vector idx) (index_array n I) N b n (List.length Fs) c q BD0 L0 OK0 D HT SI HC IM)
    as (t & _ & _ & Et & _ & _ & _ & _ & _ & ST & _).
  assert (DT : forall F, In F Fs -> documented s F train b n /\ full_train_tensors F (index_vector idx) (index_array n I) train targets = Ok t).
  { intros F HF. split; [apply DOC; exact HF|]. rewrite <- (same_tensors_eq F0 F); auto. }
  destruct (train_each_ok ls EX slogdet eps gamma kv train targets (index_vector idx) (index_array n I) N b n (List.length Fs) c q
    D HT Hb Hn0 ltac:(lia) SI HC IM WPN opt tried l draws t s ML Fs s 0%nat (extends_refl s) (le_n _) DT OPT) as (s' & Fs' & ER & EXT & LF & GD).
  assert (GF : forall F', In F' Fs' -> trainable s' F' train b n /\ loo_well_posed (full_noise s' F') train b n c q /\
     full_train_tensors F' (index_vector idx) (index_array n I) train targets = Ok t).
  { intros F' HF'. apply in_nth in HF' as (j & Hj). destruct (nth_error_same Fs' Fs j F') as (F & HF); auto.
    destruct (GD j F F' HF Hj) as (_ & G1 & _ & G2 & G3 & _). auto. }
  destruct (scales_loop ls EX gamma kv train targets (index_vector idx) (index_array n I) N b n (List.length Fs) c q D HT Hb Hn0 ltac:(lia) SI HC IM t
    draws' s' Fs' 0%nat ltac:(lia) GF) as (scs & LS & SU & SL).
  exists idx, q, s', Fs', scs. split; [exact LEN|]. split; [exact ND|]. split; [intros i Hi'; split; [apply HC; auto|apply NO; auto]|].
  split; [exact EXT|]. split; [exact LF|]. split; [congruence|]. split.
  { intros i F F' HF HF'. specialize (GD i F F' HF HF'). split; [exists (index_vector idx), (index_array n I), t; exact GD|].
    destruct GD as (_ & (_ & (K & L & _) & _) & _). exists K. split; [exact L|]. apply (SU i F' K); auto. }
  unfold train_multivariate_regressor. rewrite HT, Nat.eqb_refl. cbn [negb]. rewrite Hi. cbn [bind].
  destruct (all_fixed_ok s Fs) as (fx & EAF & IA); [intros F HF; destruct (DOC F HF) as (X & _); exact X|]. rewrite EAF. cbn [bind].
  destruct fx; [exfalso; apply NF; apply IA; reflexivity|]. rewrite ES. cbn [bind fst snd].
  assert (EMT : multi_train_tensors Fs (index_vector idx) (index_array n I) train targets = Ok t) by (rewrite EFs; exact Et).
  rewrite EMT. cbn [bind]. rewrite ER. cbn [bind fst snd]. unfold multi_optimize_scale, mm_optimize_scale.
  rewrite ST, map_length, LF, Nat.eqb_refl. destruct (forallb (fun sc : R => negb (Rleb sc 0)) scs).
  - rewrite SL. cbn [bind fst snd]. rewrite (set_scales_combine gamma kv b n Hb Hn0 ltac:(lia) s') by exact LS. reflexivity.
  - destruct SL as [ms ->]. reflexivity.
Qed.

(** ** Predicting with the models *)
Lemma models_predict en method kw w s Fs test train targets f N M n :
  lower method = "exact"%string -> euclidean_kw kw -> nn_init en (rows_of train) n method kw = Ok w -> (0 < n <= N /\ 0 < M)%nat -> n <> 1%nat ->
  shape test = [M; f] -> shape train = [N; f] -> shape targets = [N; List.length Fs] -> distinct_rows train N (fun i => i) -> Fs <> [] ->
  (forall F, In F Fs -> f_bound F = model_make s (f_attr F) /\ (exists K, full_lib s F = Some K /\ lk_ok K (feature_count train) (reals s) []) /\
     exists v, full_noise s F = HomoscedasticNoise v /\ 0 <= v) ->
  exists mean var, regress_any ls knn hnsw (Multivariate (trained_models gamma kv s Fs)) test train w targets = Ok (mean, var) /\
    multi_predictions gamma kv s Fs (fun i => match nth_error Fs i with Some F => f_scale F * f_var_scale F | None => 0 end)
      test train targets N M n mean var.
Proof.
  intros Hm He Hi Hn N1 St Sx HT DR NE H.
  destruct Fs as [|F0 Fs0] eqn:EFs; [contradiction|]. rewrite <- EFs in *.
  assert (I0 : In F0 Fs) by (rewrite EFs; left; reflexivity).
  destruct (H F0 I0) as (_ & (K0 & L0 & _) & _).
  set (kf := fun F => match full_lib s F with Some K => K | None => K0 end).
  set (ms := map (fun F => (gp_bound s F, kf F, reals s)) Fs).
  assert (FC : feature_count train = f) by (unfold feature_count; rewrite Sx; reflexivity).
  assert (EM : trained_models gamma kv s Fs = map (fun e => lib_model gamma kv (fst (fst e)) (snd (fst e)) (snd e)) ms).
  { unfold trained_models, ms. rewrite map_map. apply map_ext_in. intros F HF. cbn [fst snd].
    destruct (H F HF) as (B & (K & L & OK) & _). unfold full_mm, lib_model. f_equal. apply functional_extensionality. intros d.
    unfold kf. rewrite L. apply full_kernel_lk; auto. }
  destruct (regress_any_multi gamma kv ls EX knn hnsw dist Hsk en method kw w ms test train targets f N M n (List.length Fs))
    as (mean & var & q & E & S1 & S2 & NR & V); auto.
  { unfold ms. rewrite EFs. discriminate. }
  { unfold ms. rewrite map_length. lia. }
  { intros g K cur HI. unfold ms in HI. apply in_map_iff in HI as (F & EF & HF). injection EF as <- <- <-.
    destruct (H F HF) as (B & (K & L & OK) & v & HN & Hv).
    assert (GN : gp_noise (gp_bound s F) = full_noise s F) by (unfold gp_bound; rewrite B; reflexivity).
    unfold kf. rewrite L, <- FC. split; [exact OK|]. split; [reflexivity|]. split; [reflexivity|]. rewrite GN, HN.
    split; [exact I|]. right. split; [intros x i _ _; exact Hv|exact DR]. }
  exists mean, var. split; [rewrite EM; exact E|]. split; [exact S1|].
  split; [rewrite S2; unfold ms; rewrite map_length; reflexivity|]. exists q. split; [exact NR|].
  intros i F K x HF L Hx k. destruct (H F (nth_error_In _ _ HF)) as (B & _ & _).
  assert (GN : gp_noise (gp_bound s F) = full_noise s F) by (unfold gp_bound; rewrite B; reflexivity).
  assert (HM : nth_error ms i = Some (gp_bound s F, K, reals s)).
  { unfold ms. rewrite nth_error_map, HF. cbn [option_map]. unfold kf. rewrite L. reflexivity. }
  destruct (V i _ _ _ x HM Hx) as (V1 & wv & V2 & V3). rewrite GN in V1, V2. unfold k. rewrite FC. split; [exact V1|].
  exists wv. split; [exact V2|]. rewrite HF. rewrite V3.
  change (gp_scale (gp_bound s F)) with (f_scale F). change (gp_var_scale (gp_bound s F)) with (f_var_scale F). ring.
Qed.
End Regressor.
