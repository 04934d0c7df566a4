(** Proofs about do_regress with one model per response and about make_multivariate_classifier. *)
From Coq Require Import Lia Lra.
From Verif Require Import Base BaseFacts NdModel NdFacts RSum LinAlgModel LinAlgSpec LinAlgFacts
  GPModel NoiseModel MuyGPSModel MuyGPSProofs GPSpec GPTheorems ScaleSpec ScaleProofs TensorModel TensorSpec TensorProofs
  HyperModel HyperSpec NamedModel NamedSpec NamedProofs KernelModel KernelSpec FlowModel FlowSpec FlowProofs PointwiseSpec LibSpec LibProofs
  LossModel LossSpec LossProofs ChassisModel ChassisSpec ChassisProofs ObjectiveProofs MultiModel MultiSpec MultiProofs DriverModel ClassifyModel ClassifySpec ClassifyProofs UqProofs
  WorkModel WorkSpec WorkProofs WorkLemmas NeighborsModel NeighborsSpec NeighborsProofs BatchProofs BatchLemmas
  TrainModel TrainSpec TrainProofs TrainProofs2 TrainProofs3 UqWorkSpec UqWorkProofs ClassTrainModel ClassTrainSpec ClassTrainProofs
  MultiTrainModel MultiTrainSpec MultiTrainProofs MultiTrainProofs2 MultiTrainProofs3 MultiTrainProofs4.
Local Open Scope R_scope.

Lemma nth_error_combine {A B} (l : list A) (l' : list B) d : forall i x, List.length l' = List.length l -> nth_error l i = Some x ->
  nth_error (combine l l') i = Some (x, nth i l' d).
Proof.
  revert l'. induction l as [|a l IH]; intros [|b l'] i x L H; cbn in L; try lia; destruct i; cbn in *; try discriminate.
  - congruence.
  - apply IH; auto; lia.
Qed.
Lemma nth_error_rescaled Fs scs i F : List.length scs = List.length Fs -> nth_error Fs i = Some F ->
  nth_error (map (fun e => rescaled (fst e) (snd e)) (combine Fs scs)) i = Some (rescaled F (nth i scs 0)).
Proof. intros L H. rewrite nth_error_map, (nth_error_combine Fs scs 0 i F); auto. Qed.
Lemma rescaled_in Fs scs F : List.length scs = List.length Fs -> In F (map (fun e => rescaled (fst e) (snd e)) (combine Fs scs)) ->
  exists i F', nth_error Fs i = Some F' /\ F = rescaled F' (nth i scs 0).
Proof.
  intros L H. apply in_nth in H as (i & Hi). pose proof (nth_error_some _ _ _ Hi) as Hl.
  rewrite map_length, combine_length in Hl. destruct (nth_error Fs i) as [F'|] eqn:E; [|apply nth_error_None in E; lia].
  exists i, F'. split; [exact E|]. rewrite (nth_error_rescaled Fs scs i F') in Hi by auto. congruence.
Qed.

Section Do.
Variable ls : lsolver.
Hypothesis EX : exact_solver ls.
Variable slogdet : nat -> mat -> R * R.
Variable eps : R.
Variables (gamma : R -> R) (kv : R -> R -> R).
Variable knn : dict nnval -> list point -> point -> nat -> list (nat * R).
Variable hnsw : nnval -> list point -> point -> nat -> list (nat * R).
Variable dist : dict nnval -> point -> point -> R.
Hypothesis Hsk : sklearn_ok knn dist.
Variable opt : store -> full -> (dict R -> result R) -> result (store * full).
Variable tried : (dict R -> result R) -> list R -> Prop.

Lemma multi_do_fixed en method kw w test train targets f N M n bc drawn s Fs l draws draws' :
  lower method = "exact"%string -> euclidean_kw kw -> nn_init en (rows_of train) n method kw = Ok w -> (0 < n <= N /\ 0 < M)%nat -> n <> 1%nat ->
  shape test = [M; f] -> shape train = [N; f] -> shape targets = [N; List.length Fs] -> distinct_rows train N (fun i => i) -> Fs <> [] ->
  (forall F, In F Fs -> model_ok s F /\ model_fixed s (f_attr F) = Ok true /\ f_bound F = model_make s (f_attr F) /\
     (exists K, full_lib s F = Some K /\ lk_ok K (feature_count train) (reals s) []) /\
     exists v, full_noise s F = HomoscedasticNoise v /\ 0 <= v) ->
  exists mean var,
    train_and_regress_multi ls slogdet eps gamma kv opt knn hnsw en test train targets n bc method kw drawn s Fs l draws draws' =
      Ok (s, Fs, w, (mean, var)) /\
    multi_predictions gamma kv s Fs (fun i => match nth_error Fs i with Some F => f_scale F * f_var_scale F | None => 0 end)
      test train targets N M n mean var.
Proof.
  intros Hm He Hi Hn N1 St Sx HT DR NE H.
  destruct (models_predict ls EX gamma kv knn hnsw dist Hsk en method kw w s Fs test train targets f N M n) as (mean & var & E & P); auto.
  { intros F HF. destruct (H F HF) as (_ & _ & A). exact A. }
  exists mean, var. split; [|exact P]. unfold train_and_regress_multi.
  rewrite (multi_regressor_fixed ls slogdet eps gamma kv knn hnsw opt en method kw w train targets N n bc drawn s Fs l draws draws' Hi HT).
  - cbn [bind]. rewrite E. reflexivity.
  - intros F HF. apply (H F HF).
  - intros F HF. apply (H F HF).
Qed.

Lemma multi_do_regress en method kw w test train targets f N M n bc drawn s Fs l draws draws' :
  lower method = "exact"%string -> euclidean_kw kw -> nn_init en (rows_of train) n method kw = Ok w -> (n + 1 <= N /\ 0 < M)%nat -> (1 < n)%nat ->
  shape test = [M; f] -> shape train = [N; f] -> shape targets = [N; List.length Fs] -> distinct_rows train N (fun i => i) -> (0 < bc)%nat ->
  valid_choice (seq 0 N) bc drawn \/ (N <= bc)%nat ->
  (forall F, In F Fs -> documented s F train (Nat.min bc N) n /\ f_var_scale F = f_scale F /\ exists v, full_noise s F = HomoscedasticNoise v) ->
  (forall F F', In F Fs -> In F' Fs -> same_tensors F F') ->
  ~ (forall F, In F Fs -> model_fixed s (f_attr F) = Ok true) -> mean_loss l -> trains opt tried s Fs ->
  exists idx q s' Fs' scs,
    List.length idx = Nat.min bc N /\ NoDup idx /\
    (forall i, (i < Nat.min bc N)%nat -> (nth i idx O < N)%nat /\ nearest_others train N (nth i idx O) n (q i)) /\
    extends s s' /\ List.length Fs' = List.length Fs /\ List.length scs = List.length Fs /\
    (forall i F F', nth_error Fs i = Some F -> nth_error Fs' i = Some F' ->
       trained_on gamma kv tried s F s' F' l train (response targets N i) (Nat.min bc N) n (fun i => nth i idx O) q /\
       exists K, full_lib s' F' = Some K /\
         scale_used F' (lk_cov gamma kv K (feature_count train) (reals s') []) (full_noise s' F') train (response targets N i)
           (Nat.min bc N) n q (nth i scs 0)) /\
    ((exists mean var, (forall i, (i < List.length Fs)%nat -> 0 < nth i scs 0) /\
       train_and_regress_multi ls slogdet eps gamma kv opt knn hnsw en test train targets n bc method kw drawn s Fs l draws draws' =
         Ok (s', map (fun e => rescaled (fst e) (snd e)) (combine Fs' scs), w, (mean, var)) /\
       multi_predictions gamma kv s' Fs' (fun i => nth i scs 0 * match nth_error Fs i with Some F => f_scale F | None => 0 end)
         test train targets N M n mean var) \/
     (exists i, (i < List.length Fs)%nat /\ nth i scs 0 <= 0) /\
     train_and_regress_multi ls slogdet eps gamma kv opt knn hnsw en test train targets n bc method kw drawn s Fs l draws draws' = Err ValueError).
Proof.
  intros Hm He Hi Hn N1 St Sx HT DR Hbc VC DOC SAME NF ML OPT.
  assert (D : dataset train N) by (right; eauto).
  destruct (multi_regressor_ok ls EX slogdet eps gamma kv knn hnsw dist Hsk opt tried en method kw w train targets N n bc drawn s Fs l draws draws')
    as (idx & q & s' & Fs' & scs & LEN & ND & NO & EXT & LF & LS & GD & ER); auto; [apply Hn| |].
  { intros F HF. apply (DOC F HF). }
  exists idx, q, s', Fs', scs. split; [exact LEN|]. split; [exact ND|]. split; [exact NO|]. split; [exact EXT|]. split; [exact LF|]. split; [exact LS|].
  split.
  { intros i F F' HF HF'. destruct (GD i F F' HF HF') as ((ix & nn & t & G & _) & SU). auto. }
  unfold train_and_regress_multi. rewrite ER. destruct (forallb (fun sc : R => negb (Rleb sc 0)) scs) eqn:EP.
  - left. pose proof (proj1 (forallb_pos scs) EP) as PS. cbn [bind].
    destruct (models_predict ls EX gamma kv knn hnsw dist Hsk en method kw w s' (map (fun e => rescaled (fst e) (snd e)) (combine Fs' scs))
      test train targets f N M n) as (mean & var & E & P); auto; try lia.
    { rewrite map_length, combine_length, LF, LS, Nat.min_id. exact HT. }
    { intros C. apply NF. intros F HF. apply in_nth in HF as (i & HF). destruct (nth_error_same Fs Fs' i F LF HF) as (F' & HF').
      pose proof (nth_error_rescaled Fs' scs i F' ltac:(congruence) HF') as X. rewrite C in X. destruct i; discriminate. }
    { intros F HF. apply rescaled_in in HF as (i & F' & HF' & ->); [|congruence].
      destruct (nth_error_same Fs' Fs i F') as (F0 & HF0); auto.
      destruct (GD i F0 F' HF0 HF') as ((ix & nn & t & _ & (B & LK & _) & _ & _ & _ & _ & HN & _) & _).
      split; [exact B|]. split; [exact LK|]. destruct (DOC F0 (nth_error_In _ _ HF0)) as (_ & _ & v & Hv). exact (HN v Hv). }
    exists mean, var. split; [intros; apply PS; congruence|]. rewrite E. split; [reflexivity|].
    destruct P as (P1 & P2 & qq & P3 & P4). rewrite map_length, combine_length, LS, LF, Nat.min_id in P1, P2.
    split; [rewrite LF; exact P1|]. split; [rewrite LF; exact P2|]. exists qq. split; [exact P3|].
    intros i F' K x HF' L Hx k. destruct (nth_error_same Fs' Fs i F') as (F0 & HF0); auto.
    pose proof (nth_error_rescaled Fs' scs i F' ltac:(congruence) HF') as HR.
    specialize (P4 i (rescaled F' (nth i scs 0)) K x HR L Hx). cbn beta zeta in P4. rewrite HR in P4.
    destruct P4 as (V1 & wv & V2 & V3). split; [exact V1|]. exists wv. split; [exact V2|]. rewrite HF0. rewrite V3.
    destruct (GD i F0 F' HF0 HF') as ((ix & nn & t & _ & _ & _ & _ & _ & _ & _ & _ & S1 & S2) & _).
    destruct (DOC F0 (nth_error_In _ _ HF0)) as (_ & VS & _).
    cbn [rescaled f_scale f_var_scale]. rewrite (S2 VS). reflexivity.
  - right. split; [|reflexivity]. assert (X : forallb (fun sc : R => negb (Rleb sc 0)) scs <> true) by congruence.
    rewrite forallb_pos in X. destruct (Forall_Exists_dec (fun sc => 0 < sc) (Rlt_dec 0) scs) as [A|A].
    + exfalso. apply X. intros i Hi'. rewrite Forall_forall in A. apply A. apply nth_In. exact Hi'.
    + apply Exists_exists in A as (z & Hz & Nz). apply (In_nth _ _ 0) in Hz as (i & Hi' & <-). exists i. split; [congruence|lra].
Qed.

(** ** The classifier *)
Lemma multi_classifier_ok en method kw w train labels N n r lo hi cl bc draw s Fs l draws :
  lower method = "exact"%string -> euclidean_kw kw -> nn_init en (rows_of train) n method kw = Ok w -> (n + 1 <= N)%nat -> (1 < n)%nat ->
  dataset train N -> distinct_rows train N (fun i => i) -> one_hot labels N (S r) lo hi cl -> lo < hi ->
  (forall j pop c, (c <= List.length pop)%nat -> NoDup pop -> valid_choice pop c (draw j pop c)) -> List.length Fs = S r ->
  (forall F b, In F Fs -> documented s F train b n) -> (forall F F', In F Fs -> In F' Fs -> same_tensors F F') ->
  ~ (forall F, In F Fs -> model_fixed s (f_attr F) = Ok true) -> mean_loss l ->
  (exists i, contested train N n cl i) -> (N <= bc)%nat \/ (class_number N cl <= bc)%nat -> trains opt tried s Fs ->
  exists idx q s' Fs',
    (0 < List.length idx)%nat /\ contested_batch train N n cl bc idx q /\
    extends s s' /\ List.length Fs' = List.length Fs /\
    (forall i F F', nth_error Fs i = Some F -> nth_error Fs' i = Some F' ->
       exists ix nn t, good gamma kv train labels ix nn N (List.length idx) n (fun i => nth i idx O) q tried l t s s' F F' i) /\
    train_multivariate_classifier ls slogdet eps gamma kv opt knn hnsw en train labels n bc method kw draw s Fs l draws = Ok (s', Fs', w).
Proof.
  intros Hm He Hi Hn N1 D DR OH LH HD LR DOC SAME NF ML CT CN OPT.
  destruct (class_batch knn hnsw dist Hsk en method kw w train labels N n r lo hi cl bc draw Hm He Hi Hn ltac:(lia) D DR OH LH HD)
    as (classes & idx & nns & EC & EB & LN & GB & POS). specialize (POS CT CN).
  set (q := fun x j => nth j (nth x nns []) O) in *. set (c := fun i => nth i idx O) in *. set (b := List.length idx) in *.
  pose proof GB as (NDi & LB & HB).
  assert (SI : shape (index_vector idx) = [b]) by reflexivity.
  assert (HC : forall x, (x < b)%nat -> at_ (index_vector idx) [x] = Z.of_nat (c x) /\ (c x < N)%nat).
  { intros x Hx. split; [reflexivity|]. apply HB; auto. }
  assert (IM : index_matrix (index_array n nns) b n N q).
  { split; [cbn; rewrite LN; reflexivity|]. intros x j Hx Hj. split; [reflexivity|]. destruct (HB x Hx) as (_ & (B & _) & _). apply B; auto. }
  assert (HT : shape labels = [N; S r]) by apply OH.
  assert (WPN : forall m, (forall x i, 0 <= noise_at m None x i) -> loo_well_posed m train b n c q).
  { intros m Hm0. apply (others_well_posed _ train N); auto; intros x Hx; apply HB; auto. }
  destruct Fs as [|F0 Fs0] eqn:EFs; [discriminate|]. rewrite <- EFs in *.
  assert (I0 : In F0 Fs) by (rewrite EFs; left; reflexivity).
  pose proof (DOC F0 b I0) as (_ & _ & _ & _ & _ & TR0 & _). pose proof TR0 as (BD0 & (K0 & L0 & OK0) & _).
  destruct (class_tensors_ok gamma kv s F0 K0 train labels (index_vector idx) (index_array n nns) N b n (S r) c q BD0 L0 OK0 D HT SI HC IM)
    as (t & _ & _ & Et & _).
  assert (DT : forall F, In F Fs -> documented s F train b n /\ full_train_tensors F (index_vector idx) (index_array n nns) train labels = Ok t).
  { intros F HF. split; [apply DOC; exact HF|]. rewrite <- (same_tensors_eq F0 F); auto. }
  destruct (train_each_ok ls EX slogdet eps gamma kv train labels (index_vector idx) (index_array n nns) N b n (S r) c q
    D HT POS ltac:(lia) ltac:(lia) SI HC IM WPN opt tried l draws t s ML Fs s 0%nat (extends_refl s) ltac:(lia) DT OPT) as (s' & Fs' & ER & EXT & LF & GD).
  exists idx, q, s', Fs'. split; [exact POS|]. split; [exact GB|]. split; [exact EXT|]. split; [exact LF|]. split.
  { intros i F F' HF HF'. exists (index_vector idx), (index_array n nns), t. apply GD; auto. }
  unfold train_multivariate_classifier. rewrite HT, LR, Nat.eqb_refl. cbn [negb]. rewrite Hi. cbn [bind].
  destruct (all_fixed_ok s Fs) as (fx & EAF & IA); [intros F HF; destruct (DOC F b HF) as (X & _); exact X|]. rewrite EAF. cbn [bind].
  destruct fx; [exfalso; apply NF; apply IA; reflexivity|]. rewrite EC. cbn [bind]. rewrite EB. cbn [bind fst snd].
  assert (EMT : multi_train_tensors Fs (index_vector idx) (index_array n nns) train labels = Ok t) by (rewrite EFs; exact Et).
  rewrite EMT. cbn [bind]. rewrite ER. reflexivity.
Qed.

(** Cross entropy of a single column: the predictions do not matter. *)
Lemma cross_entropy_column_const p p' t b : shape p = [b; 1%nat] -> shape p' = [b; 1%nat] ->
  cross_entropy_fn eps p t = cross_entropy_fn eps p' t.
Proof.
  intros S1 S2. unfold cross_entropy_fn, softmax. rewrite S1, S2. cbn [bind]. unfold log_loss. cbn [shape].
  destruct ((b =? 0)%nat || (1 =? 0)%nat || negb (list_eqb (shape (ndmap (fun x => if Rltb 0 x then 1 else 0) t)) [b; 1%nat])); [reflexivity|].
  cbn [Nat.eqb]. destruct (forallb _ (seq 0 b)); [reflexivity|]. f_equal. f_equal. apply rsum_ext. intros i Hi. cbn [at_ rsum].
  assert (P : forall z, exp z / (0 + exp z) = 1) by (intros z; field; pose proof (exp_pos z); lra). rewrite !P. reflexivity.
Qed.

Lemma column_objective_const train targets ix nn N b n r c q s F draws i t ti names x0 bounds :
  dataset train N -> shape targets = [N; r] -> (0 < b)%nat -> (1 < n)%nat -> shape ix = [b] ->
  (forall x, (x < b)%nat -> at_ ix [x] = Z.of_nat (c x) /\ (c x < N)%nat) -> index_matrix nn b n N q ->
  documented s F train b n -> loo_well_posed (full_noise s F) train b n c q ->
  get_opt_params s (f_attr F) = Ok (names, x0, bounds) -> (i < r)%nat ->
  full_train_tensors F ix nn train targets = Ok t -> response_tensors t n i = Ok ti ->
  forall x y, in_box x bounds -> in_box y bounds ->
    obj_fn ls slogdet eps gamma kv s F CrossEntropy [] None draws (tr_pair ti) (tr_cross ti) (tr_nn_targets ti) (tr_targets ti) (combine names x) =
    obj_fn ls slogdet eps gamma kv s F CrossEntropy [] None draws (tr_pair ti) (tr_cross ti) (tr_nn_targets ti) (tr_targets ti) (combine names y).
Proof.
  intros D HT Hb Hn SI HC IM (MO & BO & PB & LF & SK & TR & NN) WP EO Hi Et Eti. specialize (SK _ _ _ EO).
  pose proof TR as (BD & (K & L & OK) & _).
  destruct (class_tensors_ok gamma kv s F K train targets ix nn N b n r c q BD L OK D HT SI HC IM)
    as (t0 & _ & _ & Et0 & _ & _ & _ & _ & ST1 & ST & _ & _ & HT1 & HTv).
  rewrite Et in Et0. injection Et0 as <-.
  destruct (response_ok targets N b n r c q Hb ltac:(lia) ltac:(lia) t i Hi ST1 ST HT1 HTv) as (ti0 & Eti0 & EP & EC & S1 & S2 & V1 & V2).
  rewrite Eti in Eti0. injection Eti0 as <-.
  assert (ONE : forall x, in_box x bounds -> exists mean, shape mean = [b; 1%nat] /\
    obj_fn ls slogdet eps gamma kv s F CrossEntropy [] None draws (tr_pair ti) (tr_cross ti) (tr_nn_targets ti) (tr_targets ti) (combine names x) =
    let! v := cross_entropy_fn eps mean (tr_targets ti) in Ok (- v)).
  { intros x BOX.
    assert (LEN : List.length x = List.length names).
    { rewrite (in_box_length _ _ BOX). apply (names_bounds_length s F names x0); auto. }
    destruct (objective_is_score ls slogdet eps gamma kv s F names x0 bounds x MO BO BD LF EO LEN BOX SK) as (s' & F' & E & O' & OBJ).
    destruct (candidate_trainable s F names x0 bounds x MO PB EO LEN BOX s' F' train b n E O' TR) as (TR' & WP' & TT).
    pose proof TR' as (B' & (K' & L' & OK') & NF' & KI').
    destruct (class_tensors_ok gamma kv s' F' K' train targets ix nn N b n r c q B' L' OK' D HT SI HC IM)
      as (t0 & Kin & Kc & Et0 & EK & EKc & SKi & SKc & _ & _ & HKv & HKc & _).
    rewrite TT, Et in Et0. injection Et0 as <-. rewrite <- EP in EK. rewrite <- EC in EKc.
    set (k := lk_cov gamma kv K' (feature_count train) (reals s') []) in *.
    assert (GB : gp_noise (gp_bound s' F') = full_noise s' F') by (unfold gp_bound; rewrite B'; reflexivity).
    assert (WPs : well_posed (full_noise s' F') train b n q).
    { intros z Hz. destruct (WP' c q WP z Hz) as [Pp|(Pp & Dq & _)]; [left|right]; auto. }
    assert (NS : forall z, (z < b)%nat -> nonsingular n (nbr_matrix k (full_noise s' F') train q z)) by (apply well_posed_ns; auto).
    assert (NS' : forall z, (z < b)%nat -> nonsingular n (plus_diag (rowmat Kin z) (noise_at (full_noise s' F') None z))).
    { intros z Hz. apply (nonsingular_ext n (nbr_matrix k (full_noise s' F') train q z)); auto. intros a j Ha Hj.
      unfold nbr_matrix, plus_diag, rowmat. rewrite HKv; auto. }
    assert (NC : no_coincidence [1%nat] [n]) by (split; cbn; [lia|intros a Ha; destruct a as [|a]; lia]).
    destruct (gp_mean_total ls EX (full_noise s' F') None Kin Kc (tr_nn_targets ti) b n [1%nat] NF' SKi SKc S2 NC NS') as (mean & Em & Sm & _).
    exists mean. split; [exact Sm|]. rewrite OBJ. unfold loo_score. rewrite EK. cbn [bind]. rewrite EKc. cbn [bind].
    unfold gp_posterior_mean. rewrite GB, Em. cbn [bind]. reflexivity. }
  intros x y Bx By. destruct (ONE x Bx) as (m1 & Sm1 & ->). destruct (ONE y By) as (m2 & Sm2 & ->).
  rewrite (cross_entropy_column_const m1 m2 _ b Sm1 Sm2). reflexivity.
Qed.
End Do.

(** ** The optimizers *)
Lemma later_model_ok s s' F : extends s s' -> model_ok s F -> model_ok s' F.
Proof.
  intros E (M1 & M2 & M3 & M4). split; [exact M1|]. split; [exact M2|]. split; [|exact M4].
  intros m Hm. destruct E as [E _]. specialize (M3 m Hm). lia.
Qed.
Lemma scipy_trains minimize (tried : (dict R -> result R) -> list R -> Prop) s Fs : (forall F, In F Fs -> model_ok s F) ->
  (forall F names x0 bounds, In F Fs -> get_opt_params s (f_attr F) = Ok (names, x0, bounds) ->
     forall f, (forall y, in_box y bounds -> exists v, f (combine names y) = Ok v) ->
     exists x, in_box x bounds /\ minimize (obj_fn_adapter f names) x0 bounds = Ok (map Fin x) /\
       forall y vx vy, tried f y -> in_box y bounds ->
         obj_fn_adapter f names x = Ok vx -> obj_fn_adapter f names y = Ok vy -> vx <= vy) ->
  trains (scipy_optimize minimize) tried s Fs.
Proof.
  intros MO H F s1 names x0 bounds HF E EO. pose proof (MO F HF) as M. pose proof M as (_ & M2 & PL & _).
  apply (scipy_returns_best minimize s1 F names x0 bounds tried).
  - apply (later_model_ok s); auto.
  - rewrite (later_opt_params s s1); auto.
  - apply (H F); auto.
Qed.
Lemma later_bayes_plan s s' F v okw : extends s s' -> model_ok s F -> bayes_plan s' F v okw = bayes_plan s F v okw.
Proof.
  intros E (_ & M2 & PL & _). unfold bayes_plan. rewrite (later_opt_params s s'); auto.
Qed.
Lemma bayes_trains maximize verbose okw (tried : (dict R -> result R) -> list R -> Prop) s Fs : (forall F, In F Fs -> model_ok s F) ->
  (forall F names x0 bounds, In F Fs -> get_opt_params s (f_attr F) = Ok (names, x0, bounds) ->
     exists plan, bayes_plan s F verbose okw = Ok plan /\
     forall f, (forall y, in_box y bounds -> exists v, f (combine names y) = Ok v) ->
     exists x, in_box x bounds /\ maximize f plan = Ok (combine names (map Fin x)) /\
       forall y vx vy, tried f y -> in_box y bounds -> f (combine names x) = Ok vx -> f (combine names y) = Ok vy -> vy <= vx) ->
  trains (fun s F f => bayes_optimize maximize s F f verbose okw) tried s Fs.
Proof.
  intros MO H F s1 names x0 bounds HF E EO. pose proof (MO F HF) as M. pose proof M as (_ & M2 & PL & _).
  destruct (H F names x0 bounds HF EO) as (plan & EP & HP).
  apply (bayes_returns_best maximize verbose okw plan s1 F names x0 bounds tried); auto.
  - rewrite (later_opt_params s s1); auto.
  - rewrite (later_bayes_plan s s1); auto.
Qed.
