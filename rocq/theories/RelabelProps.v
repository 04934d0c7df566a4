(** Property theorems C98: the numbering of the classes. *)
From Coq Require Import Lia Lra.
From Verif Require Import Base NdModel NdFacts RSum LinAlgModel LinAlgSpec GPModel NoiseModel MuyGPSModel GPSpec GPTheorems
  TensorModel TensorSpec HyperModel HyperSpec NamedModel NamedSpec KernelModel KernelSpec FlowModel FlowSpec PointwiseSpec LibSpec LibProofs
  LossModel LossSpec ChassisModel ChassisSpec MultiModel DriverModel ClassifyModel ClassifySpec ClassifyProofs ClassifyLemmas NeighborsModel NeighborsSpec NeighborsProofs BatchProofs
  WorkModel WorkSpec WorkProofs WorkLemmas WorkProps TrainModel TrainSpec TrainProofs3 TrainProps SimTrainSpec UnitsSpec UnitsProps SimTrainProps
  ClassTrainModel ClassTrainSpec ClassTrainProofs ClassTrainProps RelabelSpec RelabelProofs OrderProofs OrderProofs2 RelabelProofs2.
Local Open Scope R_scope.
Local Open Scope string_scope.

(** The training objective of any batch, as a function of the hyperparameters, does not depend on the numbering of the classes. *)
Theorem C98_objective : forall ls, exact_solver ls -> forall sld eps gamma kv s F l draws train labels labels' ix nn N b n r c q names x0 bounds t t' p,
  model_ok s F -> bounds_ok s F -> positive_bounds s F -> leading_free s (k_ls (m_kernel (f_attr F))) ->
  get_opt_params s (f_attr F) = Ok (names, x0, bounds) -> (f_kind F = FixedScale \/ ~ In "noise" names) ->
  trainable s F train b n -> loo_well_posed (full_noise s F) train b n c q -> (0 < b)%nat ->
  dataset train N -> renumbered p labels labels' N r -> (2 <= r)%nat -> r <> n ->
  shape ix = [b] -> (forall x, (x < b)%nat -> at_ ix [x] = Z.of_nat (c x) /\ (c x < N)%nat) -> index_matrix nn b n N q ->
  scores_classes l ->
  full_train_tensors F ix nn train labels = Ok t -> full_train_tensors F ix nn train labels' = Ok t' ->
  forall x, in_box x bounds -> exists v,
    obj_fn ls sld eps gamma kv s F l [] None draws (tr_pair t) (tr_cross t) (tr_nn_targets t) (tr_targets t) (combine names x) = Ok v /\
    obj_fn ls sld eps gamma kv s F l [] None draws (tr_pair t') (tr_cross t') (tr_nn_targets t') (tr_targets t') (combine names x) = Ok v.
Proof. exact objective_renumbered. Qed.
Print Assumptions C98_objective.

(** make_classifier with a batch that is not sampled (batch_count at least the number of rows), any number of classes: the same model. *)
Theorem C98_make_classifier_partial : forall ls, exact_solver ls -> forall sld eps gamma kv knn hnsw dist, sklearn_ok knn dist ->
  forall en method kw w train labels labels' N n r lo hi cl bc draw s F l draws names x0 bounds opt p,
  lower method = "exact" -> euclidean_kw kw -> nn_init en (rows_of train) n method kw = Ok w -> (n + 1 <= N)%nat -> (0 < n)%nat ->
  dataset train N -> distinct_rows train N (fun i => i) -> one_hot labels N (S r) lo hi cl -> lo < hi -> renumbered p labels labels' N (S r) ->
  model_ok s F -> bounds_ok s F -> positive_bounds s F -> leading_free s (k_ls (m_kernel (f_attr F))) ->
  get_opt_params s (f_attr F) = Ok (names, x0, bounds) -> (f_kind F = FixedScale \/ ~ In "noise" names) ->
  (forall b, trainable s F train b n) -> (forall x i, 0 <= noise_at (full_noise s F) None x i) ->
  scores_classes l -> model_fixed s (f_attr F) = Ok false -> (1 <= r)%nat -> S r <> n ->
  (exists i, contested train N n cl i) -> (N <= bc)%nat -> values_only opt s F names bounds ->
  train_classifier ls sld eps gamma kv opt knn hnsw en train labels' n bc method kw draw s F l draws =
  train_classifier ls sld eps gamma kv opt knn hnsw en train labels n bc method kw draw s F l draws.
Proof. exact train_renumbered. Qed.
Print Assumptions C98_make_classifier_partial.

(** classify_any, two classes: swapping the classes swaps the scores. *)
Theorem C98_two_classes : forall ls, exact_solver ls -> forall gamma kv knn hnsw dist, sklearn_ok knn dist ->
  forall en method kw w s F K v train test labels labels' N M n lo hi cl p,
  lower method = "exact" -> euclidean_kw kw -> nn_init en (rows_of train) n method kw = Ok w -> (0 < n <= N /\ 0 < M)%nat -> n <> 2%nat ->
  dataset test M -> dataset train N -> ndim test = ndim train -> feature_count test = feature_count train ->
  one_hot labels N 2 lo hi cl -> renumbered p labels labels' N 2 -> distinct_rows train N (fun i => i) ->
  f_bound F = model_make s (f_attr F) -> full_lib s F = Some K -> lk_ok K (feature_count train) (reals s) [] ->
  full_noise s F = HomoscedasticNoise v -> 0 <= v ->
  exists out out', work_classify_any ls knn hnsw (Univariate (full_mm gamma kv s F)) test train w labels = Ok out /\
    work_classify_any ls knn hnsw (Univariate (full_mm gamma kv s F)) test train w labels' = Ok out' /\
    scores_renumbered p out out' M 2.
Proof.
  intros ls EX gamma kv knn hnsw dist Hsk en method kw w s F K v train test labels labels' N M n lo hi cl p. intros.
  eapply work_renumbered; eauto. intros q x HQ. eapply two_classes_same_shortcut; eauto. lia.
Qed.
Print Assumptions C98_two_classes.

(** classify_any, any number of classes: renumbering all classes but the first permutes the scores (labels need not be one-hot). *)
Theorem C98_first_class_kept_partial : forall ls, exact_solver ls -> forall gamma kv knn hnsw dist, sklearn_ok knn dist ->
  forall en method kw w s F K v train test labels labels' N M n C p,
  lower method = "exact" -> euclidean_kw kw -> nn_init en (rows_of train) n method kw = Ok w -> (0 < n <= N /\ 0 < M)%nat -> S C <> n ->
  dataset test M -> dataset train N -> ndim test = ndim train -> feature_count test = feature_count train ->
  renumbered p labels labels' N (S C) -> p O = O -> distinct_rows train N (fun i => i) ->
  f_bound F = model_make s (f_attr F) -> full_lib s F = Some K -> lk_ok K (feature_count train) (reals s) [] ->
  full_noise s F = HomoscedasticNoise v -> 0 <= v ->
  exists out out', work_classify_any ls knn hnsw (Univariate (full_mm gamma kv s F)) test train w labels = Ok out /\
    work_classify_any ls knn hnsw (Univariate (full_mm gamma kv s F)) test train w labels' = Ok out' /\
    scores_renumbered p out out' M (S C).
Proof.
  intros ls EX gamma kv knn hnsw dist Hsk en method kw w s F K v train test labels labels' N M n C p. intros.
  eapply work_renumbered; eauto. intros q x HQ. eapply first_kept_same_shortcut; eauto. lia.
Qed.
Print Assumptions C98_first_class_kept_partial.

(** The predicted class of a row (first largest score) is renumbered too, unless two classes share the largest score. *)
Theorem C98_predicted_class : forall p out out' M C x c, scores_renumbered p out out' M C -> perm_on C p -> (x < M)%nat ->
  is_argmax C (fun i => at_ out [x; i]) c -> (forall i, (i < C)%nat -> i <> c -> at_ out [x; i] < at_ out [x; c]) ->
  is_argmax C (fun i => at_ out' [x; i]) (p c).
Proof.
  intros p out out' M C x c (_ & _ & H) PM Hx (Hc & _ & _) U. pose proof PM as [PM1 PM2]. split; [auto|].
  assert (Q : forall i, (i < C)%nat -> i <> p c -> at_ out' [x; i] < at_ out' [x; p c]).
  { intros i Hi NE. destruct (perm_inverse C p PM i Hi) as (d & Hd & <-). rewrite !H by auto. apply U; auto. }
  split.
  - intros i Hi. destruct (Nat.eq_dec i (p c)) as [->|NE]; [lra|]. apply Rlt_le. apply Q; auto.
  - intros i Hi. apply Q; [|lia]. specialize (PM1 c Hc). lia.
Qed.
Print Assumptions C98_predicted_class.

(** make_classifier, sampled or not, any number of classes: the same model, provided the sampler draws the same rows from each class. *)
Theorem C98_make_classifier : forall ls, exact_solver ls -> forall sld eps gamma kv knn hnsw dist, sklearn_ok knn dist ->
  forall en method kw w train labels labels' N n r lo hi cl bc draw draw' s F l draws names x0 bounds opt p v0,
  lower method = "exact" -> euclidean_kw kw -> nn_init en (rows_of train) n method kw = Ok w -> (n + 1 <= N)%nat -> (0 < n)%nat ->
  dataset train N -> distinct_rows train N (fun i => i) -> one_hot labels N (S r) lo hi cl -> lo < hi -> renumbered p labels labels' N (S r) ->
  (forall j pop c, (c <= List.length pop)%nat -> NoDup pop -> valid_choice pop c (draw j pop c)) ->
  (forall j pop c, (c <= List.length pop)%nat -> NoDup pop -> valid_choice pop c (draw' j pop c)) ->
  (N <= bc)%nat \/ same_draws N (fun a => a) p cl (fun a => p (cl a)) draw draw' ->
  model_ok s F -> bounds_ok s F -> positive_bounds s F -> leading_free s (k_ls (m_kernel (f_attr F))) ->
  get_opt_params s (f_attr F) = Ok (names, x0, bounds) -> (f_kind F = FixedScale \/ ~ In "noise" names) ->
  (forall b, trainable s F train b n) -> full_noise s F = HomoscedasticNoise v0 -> 0 <= v0 ->
  scores_classes l -> model_fixed s (f_attr F) = Ok false -> (1 <= r)%nat -> S r <> n ->
  (exists i, contested train N n cl i) -> (N <= bc)%nat \/ (class_number N cl <= bc)%nat -> values_only opt s F names bounds ->
  train_classifier ls sld eps gamma kv opt knn hnsw en train labels' n bc method kw draw' s F l draws =
  train_classifier ls sld eps gamma kv opt knn hnsw en train labels n bc method kw draw s F l draws.
Proof.
  intros ls EX sld eps gamma kv knn hnsw dist Hsk en method kw w train labels labels' N n r lo hi cl bc draw draw' s F l draws names x0 bounds opt p v0
    Hm He Hi Hn Hn0 D DR OH LH RN HD HD' SD MO BO PB LF EO SK TR HN Hv SL MF R1 RNn CT CN VO.
  destruct (train_moved ls EX sld eps gamma kv knn hnsw dist Hsk en method kw w w train train labels labels labels' N n r lo hi cl bc draw draw'
    s F l draws names x0 bounds opt (fun a => a) p v0) as (R & E1 & E2); auto.
  - split; [split; auto|]. split; [reflexivity|]. split; [reflexivity|]. intros a Ha. split; [intros f Hf; reflexivity|reflexivity].
  - intros a Ha. symmetry. apply map_id.
  - rewrite E1, E2. reflexivity.
Qed.
Print Assumptions C98_make_classifier.

(** do_classify end to end, sampled or not: the same trained model, and the scores permuted, when there are two classes or the first class keeps
    its number. *)
Theorem C98_do_classify : forall ls, exact_solver ls -> forall sld eps gamma kv knn hnsw dist, sklearn_ok knn dist ->
  forall en method kw w train labels labels' N n r lo hi cl bc draw draw' test M s F l draws names x0 bounds opt tried v0 p,
  lower method = "exact" -> euclidean_kw kw -> nn_init en (rows_of train) n method kw = Ok w -> (n + 1 <= N /\ 0 < M)%nat -> (0 < n)%nat ->
  dataset train N -> distinct_rows train N (fun i => i) -> one_hot labels N (S r) lo hi cl -> lo < hi -> renumbered p labels labels' N (S r) ->
  r = 1%nat \/ p O = O ->
  (forall j pop c, (c <= List.length pop)%nat -> NoDup pop -> valid_choice pop c (draw j pop c)) ->
  (forall j pop c, (c <= List.length pop)%nat -> NoDup pop -> valid_choice pop c (draw' j pop c)) ->
  (N <= bc)%nat \/ same_draws N (fun a => a) p cl (fun a => p (cl a)) draw draw' ->
  dataset test M -> ndim test = ndim train -> feature_count test = feature_count train ->
  model_ok s F -> bounds_ok s F -> positive_bounds s F -> leading_free s (k_ls (m_kernel (f_attr F))) ->
  get_opt_params s (f_attr F) = Ok (names, x0, bounds) -> (f_kind F = FixedScale \/ ~ In "noise" names) ->
  (forall b, trainable s F train b n) -> full_noise s F = HomoscedasticNoise v0 -> 0 <= v0 ->
  scores_classes l -> model_fixed s (f_attr F) = Ok false -> (1 <= r)%nat -> S r <> n ->
  (exists i, contested train N n cl i) -> (N <= bc)%nat \/ (class_number N cl <= bc)%nat ->
  returns_best opt s F names bounds tried -> values_only opt s F names bounds ->
  exists s' F' out out',
    train_and_classify ls sld eps gamma kv opt knn hnsw en test train labels n bc method kw draw s F l draws = Ok (s', F', w, out) /\
    train_and_classify ls sld eps gamma kv opt knn hnsw en test train labels' n bc method kw draw' s F l draws = Ok (s', F', w, out') /\
    scores_renumbered p out out' M (S r).
Proof.
  intros ls EX sld eps gamma kv knn hnsw dist Hsk en method kw w train labels labels' N n r lo hi cl bc draw draw' test M s F l draws names x0 bounds opt tried v0 p
    Hm He Hi Hn Hn0 D DR OH LH RN TW HD HD' SD D1 ND FC MO BO PB LF EO SK TR HN Hv SL MF R1 RNn CT CN OPT VO.
  assert (NN : forall x i, 0 <= noise_at (full_noise s F) None x i) by (intros; rewrite HN; exact Hv).
  destruct (C87_make_classifier_partial ls EX sld eps gamma kv knn hnsw dist Hsk en method kw w train labels N n r lo hi cl bc draw
    Hm He Hi (proj1 Hn) Hn0 D DR OH LH HD s F l draws names x0 bounds opt tried MO BO PB LF EO SK TR)
    as (idx & q & x & s' & F' & v & _ & _ & _ & E & _ & _ & _ & TR' & NN' & ET); auto.
  destruct (noise_stays_homo s F names bounds _ s' F' v0 E HN) as (v' & HN').
  destruct (TR' 0%nat) as (B' & (K & L & OK) & _).
  assert (V' : 0 <= v') by (specialize (NN' 0%nat 0%nat Hn0); rewrite HN' in NN'; exact NN').
  assert (W : exists out out', work_classify_any ls knn hnsw (Univariate (full_mm gamma kv s' F')) test train w labels = Ok out /\
    work_classify_any ls knn hnsw (Univariate (full_mm gamma kv s' F')) test train w labels' = Ok out' /\ scores_renumbered p out out' M (S r)).
  { destruct TW as [-> | P0].
    - apply (C98_two_classes ls EX gamma kv knn hnsw dist Hsk en method kw w s' F' K v' train test labels labels' N M n lo hi cl p); auto. lia.
    - apply (C98_first_class_kept_partial ls EX gamma kv knn hnsw dist Hsk en method kw w s' F' K v' train test labels labels' N M n r p); auto. lia. }
  destruct W as (out & out' & E1 & E2 & SR). exists s', F', out, out'.
  assert (ET' : train_classifier ls sld eps gamma kv opt knn hnsw en train labels' n bc method kw draw' s F l draws = Ok (s', F', w)).
  { rewrite <- ET. exact (C98_make_classifier ls EX sld eps gamma kv knn hnsw dist Hsk en method kw w train labels labels' N n r lo hi cl bc draw draw'
      s F l draws names x0 bounds opt p v0 Hm He Hi (proj1 Hn) Hn0 D DR OH LH RN HD HD' SD MO BO PB LF EO SK TR HN Hv SL MF R1 RNn CT CN VO). }
  split; [|split; [|exact SR]].
  - unfold train_and_classify. rewrite ET. cbn [bind]. rewrite E1. reflexivity.
  - unfold train_and_classify. rewrite ET'. cbn [bind]. rewrite E2. reflexivity.
Qed.
Print Assumptions C98_do_classify.

(** A sampler that satisfies its hypotheses: the first rows of the population in row order (for the data of C87_sat, classes exchanged). *)
Definition ex98_draw (_ : nat) (pop : list nat) (k : nat) : list nat := firstn k (filter (fun a => existsb (Nat.eqb a) pop) (seq 0 (S (list_max pop)))).
Lemma ex98_members pop a : In a (filter (fun a => existsb (Nat.eqb a) pop) (seq 0 (S (list_max pop)))) <-> In a pop.
Proof.
  rewrite filter_In, existsb_exists, in_seq. split.
  - intros (_ & b & Hb & E). apply Nat.eqb_eq in E. subst b. exact Hb.
  - intros Hin. split; [|exists a; split; [exact Hin|apply Nat.eqb_refl]]. pose proof (proj1 (list_max_le pop (list_max pop)) (le_n _)) as X.
    rewrite Forall_forall in X. specialize (X a Hin). lia.
Qed.
Lemma ex98_same pop pop' : (forall a, In a pop' <-> In a pop) ->
  filter (fun a => existsb (Nat.eqb a) pop') (seq 0 (S (list_max pop'))) = filter (fun a => existsb (Nat.eqb a) pop) (seq 0 (S (list_max pop))).
Proof.
  intros H. assert (M : list_max pop' = list_max pop).
  { apply Nat.le_antisymm; apply list_max_le; apply Forall_forall; intros a Ha; apply H in Ha;
      [pose proof (proj1 (list_max_le pop (list_max pop)) (le_n _)) as X | pose proof (proj1 (list_max_le pop' (list_max pop')) (le_n _)) as X];
      rewrite Forall_forall in X; apply X; exact Ha. }
  rewrite M. apply filter_ext. intros a. destruct (existsb (Nat.eqb a) pop') eqn:E1, (existsb (Nat.eqb a) pop) eqn:E2; auto; exfalso;
    [rewrite <- not_true_iff_false in E2; apply E2 | rewrite <- not_true_iff_false in E1; apply E1]; [apply existsb_exists in E1 as (b & Hb & E)|apply existsb_exists in E2 as (b & Hb & E)];
    apply existsb_exists; exists b; (split; [apply H; exact Hb|exact E]).
Qed.
Lemma NoDup_firstn_ (l : list nat) k : NoDup l -> NoDup (firstn k l).
Proof.
  intros ND. revert k. induction ND as [|a l0 Hin ND IH]; intros [|k]; cbn; constructor; auto.
  intros C. apply Hin. rewrite <- (firstn_skipn k l0). apply in_app_iff. auto.
Qed.
Example C98_draw_sat : (forall j pop c, (c <= List.length pop)%nat -> NoDup pop -> valid_choice pop c (ex98_draw j pop c)) /\
  same_draws 4 (fun a => a) (fun c => 1 - c)%nat ex87_cl (fun a => 1 - ex87_cl a)%nat ex98_draw ex98_draw /\ class_number 4 ex87_cl = 2%nat /\
  nth_class 4 ex87_cl 0 0 /\ nth_class 4 (fun a => 1 - ex87_cl a)%nat 1 (1 - 0).
Proof.
  split.
  { intros j pop c Hc ND. unfold ex98_draw.
    assert (P : Permutation.Permutation (filter (fun a => existsb (Nat.eqb a) pop) (seq 0 (S (list_max pop)))) pop).
    { apply Permutation.NoDup_Permutation; [apply NoDup_filter, seq_NoDup|exact ND|apply ex98_members]. }
    split; [apply firstn_length_le; rewrite (Permutation.Permutation_length P); exact Hc|]. split; [apply NoDup_firstn_, NoDup_filter, seq_NoDup|].
    intros a Ha. apply ex98_members. rewrite <- (firstn_skipn c (filter _ _)). apply in_app_iff. auto. }
  split.
  { intros c j j' pop pop' k _ _ _ _ B B' _ H a Ha. unfold ex98_draw. rewrite (ex98_same pop pop'); [reflexivity|].
    intros i. split; intros Hi; apply H; auto. }
  split; [reflexivity|]. split; split; reflexivity.
Qed.

(** With three classes the numbering matters: the shortcut looks at the first class only.  Training points 0 and 2 of classes 1 and 2, test
    point -1, two neighbours; exchanging the names of classes 0 and 1 changes the score of the class of training point 0. *)
Definition ex98_train : nd R := mkNd [2%nat] (fun idx => match idx with [O] => 0 | _ => 2 end).
Definition ex98_test : nd R := mkNd [1%nat] (fun _ => -1).
Definition ex98_labels (cl : nat -> nat) : nd R := mkNd [2; 3]%nat (fun idx => match idx with [i; c] => if (c =? cl i)%nat then 1 else 0 | _ => 0 end).
Definition ex98_swap (c : nat) : nat := match c with O => 1%nat | 1%nat => O | _ => c end.
Theorem C98_three_classes_refuted : forall gamma kv ls knn hnsw dist, exact_solver ls -> sklearn_ok knn dist ->
  exists w out out',
    nn_init false (rows_of ex98_train) 2 "exact" [] = Ok w /\
    one_hot (ex98_labels S) 2 3 0 1 S /\
    renumbered ex98_swap (ex98_labels S) (ex98_labels (fun i => ex98_swap (S i))) 2 3 /\
    work_classify_any ls knn hnsw (Univariate (lib_model gamma kv ex80_gp ex80_K (fun _ => 1))) ex98_test ex98_train w (ex98_labels S) = Ok out /\
    work_classify_any ls knn hnsw (Univariate (lib_model gamma kv ex80_gp ex80_K (fun _ => 1))) ex98_test ex98_train w (ex98_labels (fun i => ex98_swap (S i))) = Ok out' /\
    at_ out [0; 1]%nat = 1 /\ at_ out' [0; ex98_swap 1]%nat <> 1.
Proof.
  intros gamma kv ls knn hnsw dist EX Hsk. set (labels := ex98_labels S). set (labels' := ex98_labels (fun i => ex98_swap (S i))).
  destruct (nn_init false (rows_of ex98_train) 2 "exact" []) as [w|e] eqn:Ew; [|discriminate].
  assert (DR : distinct_rows ex98_train 2 (fun i => i)).
  { intros i j Hi Hj Hij. exists O. split; [apply Nat.lt_0_1|]. unfold feature, ex98_train. cbn [shape at_].
    destruct i as [|[|i]]; [| |lia]; (destruct j as [|[|j]]; [| |lia]); try lia; lra. }
  assert (D1 : dataset ex98_test 1) by (left; reflexivity). assert (D2 : dataset ex98_train 2) by (left; reflexivity).
  assert (LK : lk_ok ex80_K (feature_count ex98_train) (fun _ => 1) []).
  { split; [reflexivity|]. split; [apply Nat.lt_0_1|]. split; [intros f _; cbn; lra|reflexivity]. }
  destruct (lookup_rows knn hnsw dist Hsk false "exact" [] w ex98_test ex98_train 2 1 2) as (I & DD & EG & CW & IM & NR); auto.
  { unfold euclidean_kw; cbn; auto. }
  set (q := nbr knn hnsw w ex98_test) in *.
  assert (Q : q 0%nat 0%nat = O /\ q 0%nat 1%nat = 1%nat).
  { destruct (NR 0%nat Nat.lt_0_1) as (N1 & N2 & N3 & _). specialize (N3 0%nat 1%nat ltac:(lia) ltac:(lia)).
    pose proof (N1 0%nat ltac:(lia)) as A0. pose proof (N1 1%nat ltac:(lia)) as A1. pose proof (N2 0%nat 1%nat ltac:(lia) ltac:(lia)) as A2.
    destruct (q 0%nat 0%nat) as [|[|a]]; [| |lia]; (destruct (q 0%nat 1%nat) as [|[|a']]; [| |lia]); auto; try (exfalso; lia).
    exfalso. unfold row_dist, sqdist, feature, feature_count, ex98_train, ex98_test in N3. cbn [shape at_ rsum] in N3. lra. }
  destruct Q as [Q0 Q1].
  set (k := lk_cov gamma kv ex80_K (feature_count ex98_train) (fun _ => 1) []).
  assert (NS : forall x, (x < 1)%nat -> nonsingular 2 (nbr_matrix k (gp_noise ex80_gp) ex98_train q x)).
  { apply well_posed_ns; auto. apply (sound_well_posed _ ex98_test ex98_train 2); auto. right. split; [intros; cbn; lra|exact DR]. }
  assert (AN : forall lb, shape lb = [2; 3]%nat -> answers (fun ix nn => posterior_mean_from_indices ls ex80_gp (lk_call gamma kv ex80_K (fun _ => 1) []) ix nn ex98_test ex98_train lb)
    (index_array 2 I) 1 2 3 (fun x => ~ agree_first lb 2 q x) (fun x c v => kriging 2 (nbr_matrix k (gp_noise ex80_gp) ex98_train q x) (fun j => kcov k ex98_test ex98_train x (q x j))
                    (fun j => at_ lb [q x j; c]) v)).
  { intros lb SL. apply (gp_answers ls ex80_gp (feature_count ex98_train) (lk_call gamma kv ex80_K (fun _ => 1) []) k ex98_test ex98_train lb (index_array 2 I) 2 1 2 q 3); auto.
    apply lk_pointwise; auto. }
  destruct (classify_value _ labels (index_array 2 I) 2 2 1 1 q _ eq_refl IM ltac:(lia) (AN labels eq_refl)) as (out & E & S1 & V).
  destruct (classify_value _ labels' (index_array 2 I) 2 2 1 1 q _ eq_refl IM ltac:(lia) (AN labels' eq_refl)) as (out' & E' & S2 & V').
  exists w, out, out'. split; [reflexivity|]. split.
  { split; [lra|]. split; [reflexivity|]. intros i Hi. split; [lia|]. intros c Hc. reflexivity. }
  split.
  { split; [split|].
    - intros i Hi. destruct i as [|[|[|i]]]; cbn; lia.
    - intros i j Hi Hj. destruct i as [|[|[|i]]]; [| | |lia]; (destruct j as [|[|[|j]]]; [| | |lia]); cbn; lia.
    - split; [reflexivity|]. split; [reflexivity|]. intros i c Hi Hc. unfold ex98_labels. cbn [at_].
      destruct i as [|[|i]]; [| |lia]; (destruct c as [|[|[|c]]]; [| | |lia]); reflexivity. }
  split; [unfold work_classify_any; rewrite EG; cbn [bind fst]; rewrite CW; exact E|].
  split; [unfold work_classify_any; rewrite EG; cbn [bind fst]; rewrite CW; exact E'|].
  split.
  { destruct (V 0%nat 1%nat Nat.lt_0_1 ltac:(lia)) as [V1 _]. rewrite V1.
    - rewrite Q0. reflexivity.
    - intros j Hj. destruct j as [|[|j]]; [reflexivity| |lia]. rewrite Q0, Q1. reflexivity. }
  destruct (V' 0%nat 0%nat Nat.lt_0_1 ltac:(lia)) as [_ V2]. change (ex98_swap 1) with 0%nat.
  destruct V2 as (wv & W & ->).
  { intros A. specialize (A 1%nat ltac:(lia)). rewrite Q0, Q1 in A. cbn in A. lra. }
  pose proof (W 0%nat ltac:(lia)) as W0. pose proof (W 1%nat ltac:(lia)) as W1. unfold dot. cbn [rsum] in W0, W1 |- *.
  unfold nbr_matrix, plus_diag in W0, W1. rewrite Q0, Q1 in *. cbn [Nat.eqb noise_at gp_noise ex80_gp] in W0, W1.
  assert (KD : forall X Y a b d, feature X a 0 - feature Y b 0 = d -> kcov k X Y a b = exp (- (d * d) / 2)).
  { intros X Y a b d <-. unfold kcov, k, lk_cov, ex80_K, rbf_cov. cbn. f_equal. field. }
  rewrite (KD ex98_train ex98_train 0%nat 0%nat 0), (KD ex98_train ex98_train 1%nat 1%nat 0) in * by (unfold feature; cbn; lra).
  rewrite (KD ex98_train ex98_train 0%nat 1%nat (-2)) in * by (unfold feature; cbn; lra).
  rewrite (KD ex98_train ex98_train 1%nat 0%nat 2) in * by (unfold feature; cbn; lra).
  rewrite (KD ex98_test ex98_train 0%nat 0%nat (-1)) in * by (unfold feature; cbn; lra).
  rewrite (KD ex98_test ex98_train 0%nat 1%nat (-3)) in * by (unfold feature; cbn; lra).
  set (z := exp (- (1/2))).
  assert (Z0 : exp (- (0 * 0) / 2) = 1) by (rewrite <- exp_0; f_equal; lra).
  assert (Z1 : exp (- (-1 * -1) / 2) = z) by (unfold z; f_equal; lra).
  assert (Z2 : exp (- (2 * 2) / 2) = z ^ 4).
  { unfold z. rewrite <- Rpower_pow by apply exp_pos. unfold Rpower. rewrite ln_exp. f_equal. cbn. lra. }
  assert (Z3 : exp (- (-2 * -2) / 2) = z ^ 4) by (rewrite <- Z2; f_equal; lra).
  rewrite Z0, Z1, Z2, Z3 in *. pose proof (exp_pos (- (-3 * -3) / 2)) as P9. set (y := exp (- (-3 * -3) / 2)) in *.
  assert (ZP : 0 < z) by apply exp_pos.
  assert (ZL : z < 2 / 3).
  { pose proof (exp_ineq1 (1/2) ltac:(lra)) as X. assert (z * exp (1/2) = 1) by (unfold z; rewrite <- exp_plus, <- exp_0; f_equal; lra). nra. }
  cbn -[pow]. intros C.
  assert (C0 : wv 0%nat = 1) by lra. rewrite C0 in *.
  assert (Z4 : 0 < z ^ 4 < 1 / 4) by (split; [apply pow_lt; auto|]; assert (z ^ 2 < 1/2) by nra; replace (z ^ 4) with (z ^ 2 * z ^ 2) by ring; assert (0 <= z ^ 2) by (apply pow2_ge_0); nra).
  set (u := z ^ 4) in *. clearbody u y z. assert (E1 : wv 1%nat = y - u) by lra. rewrite E1 in *.
  assert (E2 : 1 - z = u * u - u * y) by lra. assert (u * u < 1 / 16) by nra. assert (0 < u * y) by nra. lra.
Qed.
Print Assumptions C98_three_classes_refuted.

(** The hypotheses hold for the data of C87_sat (its other hypotheses: C84_sat and C87_sat) with the two classes exchanged, the optimizer of
    C93_sat, and batch_count 4; and for three classes with the last two exchanged. *)
Definition ex98_labels' : nd R := mkNd [4; 2]%nat (fun idx => match idx with [i; c] => if (c =? 1 - ex87_cl i)%nat then 1 else -1 | _ => 0 end).
Example C98_sat : renumbered (fun c => 1 - c)%nat ex87_labels ex98_labels' 4 2 /\ contested ex87_train 4 3 ex87_cl 0 /\ (4 <= 4)%nat /\
  returns_best ex93_opt ex84_store ex84 ["length_scale"] [(Fin (1/2), Fin 2)] (fun _ y => y = [1] \/ y = [3/2]) /\
  values_only ex93_opt ex84_store ex84 ["length_scale"] [(Fin (1/2), Fin 2)] /\
  (let p c := match c with 1 => 2 | 2 => 1 | _ => c end%nat in
   renumbered p (ex98_labels (fun i => i)) (ex98_labels (fun i => p i)) 2 3 /\ p O = O) /\
  is_argmax 2 (fun i => at_ ex87_labels [1%nat; i]) 1 /\ scores_renumbered (fun c => 1 - c)%nat ex87_labels ex98_labels' 4 2.
Proof.
  assert (RN : renumbered (fun c => 1 - c)%nat ex87_labels ex98_labels' 4 2).
  { split; [split; intros; lia|]. split; [reflexivity|]. split; [reflexivity|]. intros i c Hi Hc. unfold ex87_labels, ex98_labels'. cbn [at_].
    destruct i as [|[|[|[|i]]]]; [| | | |lia]; (destruct c as [|[|c]]; [| |lia]); reflexivity. }
  split; [exact RN|]. split. { destruct C87_sat as (knn & dist & w & H). decompose [and] H. assumption. }
  split; [lia|]. split. { destruct C93_sat as (_ & _ & H & _). exact H. }
  split. { destruct (C97_sat 0) as (w & w0 & H). decompose [and] H. assumption. }
  split.
  { intros p. split; [|reflexivity]. split; [split|].
    - intros i Hi. destruct i as [|[|[|i]]]; cbn; lia.
    - intros i j Hi Hj. destruct i as [|[|[|i]]]; [| | |lia]; (destruct j as [|[|[|j]]]; [| | |lia]); cbn; lia.
    - split; [reflexivity|]. split; [reflexivity|]. intros i c Hi Hc. unfold ex98_labels. cbn [at_].
      destruct i as [|[|i]]; [| |lia]; (destruct c as [|[|[|c]]]; [| | |lia]); reflexivity. }
  split.
  { split; [lia|]. split.
    - intros i Hi. destruct i as [|[|i]]; [| |lia]; cbn; lra.
    - intros i Hi. destruct i as [|i]; [|lia]. cbn; lra. }
  destruct RN as (_ & _ & _ & H). split; [reflexivity|]. split; [reflexivity|]. exact H.
Qed.
