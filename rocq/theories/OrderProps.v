(** Property theorems C100: the order of the training rows does not matter to training. *)
From Coq Require Import Lia Lra.
From Verif Require Import Base NdModel NdFacts RSum LinAlgModel LinAlgSpec GPModel NoiseModel MuyGPSModel GPSpec ScaleSpec
  TensorModel TensorSpec HyperModel HyperSpec NamedModel NamedSpec KernelModel KernelSpec FlowSpec PointwiseSpec LibSpec
  LossModel LossSpec ChassisModel ChassisSpec MultiModel DriverModel ClassifyModel NeighborsModel NeighborsSpec NeighborsProofs BatchProofs
  WorkModel WorkSpec WorkLemmas WorkProps TrainModel TrainSpec TrainProps SimSpec UnitsSpec UnitsProps SimTrainSpec OrderSpec OrderProofs OrderProofs2
  ClassifySpec ClassTrainModel ClassTrainSpec ClassTrainProofs ClassTrainProps RelabelSpec RelabelProofs2 RelabelProps UqWorkProofs TrainProofs TrainProofs2 TrainProofs3.
Local Open Scope R_scope.
Local Open Scope string_scope.

(** The training rows stored in another order ([p]), the batch listed in another order ([pi]): every candidate has the same objective. *)
Theorem C100_objective : forall ls, exact_solver ls -> forall sld eps gamma kv s F l kw draws train train' targets targets' ix nn ix' nn' N b n c q c' q' names x0 bounds t t' p pi v0,
  model_ok s F -> bounds_ok s F -> positive_bounds s F -> leading_free s (k_ls (m_kernel (f_attr F))) ->
  get_opt_params s (f_attr F) = Ok (names, x0, bounds) -> (f_kind F = FixedScale \/ ~ In "noise" names) ->
  trainable s F train b n -> loo_well_posed (full_noise s F) train b n c q -> full_noise s F = HomoscedasticNoise v0 ->
  batch_ok train targets ix nn N b n c q -> batch_ok train' targets' ix' nn' N b n c' q' -> loss_kw_ok kw -> scores_vectors l ->
  reordered train train' targets targets' N [] p -> perm_on b pi ->
  (forall x, (x < b)%nat -> c (pi x) = p (c' x)) -> (forall x j, (x < b)%nat -> (j < n)%nat -> q (pi x) j = p (q' x j)) ->
  full_train_tensors F ix nn train targets = Ok t -> full_train_tensors F ix' nn' train' targets' = Ok t' ->
  forall x, in_box x bounds -> exists v,
    obj_fn ls sld eps gamma kv s F l kw None draws (tr_pair t) (tr_cross t) (tr_nn_targets t) (tr_targets t) (combine names x) = Ok v /\
    obj_fn ls sld eps gamma kv s F l kw None draws (tr_pair t') (tr_cross t') (tr_nn_targets t') (tr_targets t') (combine names x) = Ok v.
Proof. exact objective_reordered. Qed.
Print Assumptions C100_objective.

(** End to end: do_regress on reordered training data, with every row in the batch or the same rows sampled, returns the same model and the
    same predictions of the test rows whose distances are not tied. *)
Theorem C100_do_regress : forall ls, exact_solver ls -> forall sld eps gamma kv knn hnsw dist, sklearn_ok knn dist ->
  forall opt en method kw w w0 test train train' targets targets' N M n bc drawn drawn' s F l draws draws' names x0 bounds tried v0 p,
  lower method = "exact" -> euclidean_kw kw -> nn_init en (rows_of train) n method kw = Ok w -> nn_init en (rows_of train') n method kw = Ok w0 ->
  (n + 1 <= N /\ 0 < M)%nat ->
  dataset test M -> ndim test = ndim train -> feature_count test = feature_count train ->
  dataset train N -> shape targets = [N] -> distinct_rows train N (fun i => i) -> (0 < bc)%nat -> (0 < n)%nat ->
  same_batch N bc p drawn drawn' ->
  model_ok s F -> bounds_ok s F -> positive_bounds s F -> leading_free s (k_ls (m_kernel (f_attr F))) ->
  get_opt_params s (f_attr F) = Ok (names, x0, bounds) -> (f_kind F = FixedScale \/ ~ In "noise" names) ->
  trainable s F train (Nat.min bc N) n -> full_noise s F = HomoscedasticNoise v0 -> 0 <= v0 ->
  scores_vectors l -> model_fixed s (f_attr F) = Ok false -> returns_best opt s F names bounds tried -> values_only opt s F names bounds ->
  reordered train train' targets targets' N [] p -> (forall a, (a < N)%nat -> no_ties train train N a) ->
  forall s' F' w' mean var,
  train_and_regress ls sld eps gamma kv opt knn hnsw en test train targets n bc method kw drawn s F l draws draws' = Ok (s', F', w', (mean, var)) ->
  exists mean' var',
    train_and_regress ls sld eps gamma kv opt knn hnsw en test train' targets' n bc method kw drawn' s F l draws draws' = Ok (s', F', w0, (mean', var')) /\
    forall x, (x < M)%nat -> no_ties test train N x -> at_ mean' [x] = at_ mean [x] /\ at_ var' [x] = at_ var [x].
Proof.
  intros ls EX sld eps gamma kv knn hnsw dist Hsk. intros. eapply do_regress_reordered; eauto.
Qed.
Print Assumptions C100_do_regress.

(** The data of C84_sat in reverse order (C80_sat), samples of two rows: rows 2, 0 of the original are rows 0, 2 of the reversed data.  The model,
    the optimizer and their other hypotheses: C84_sat, C93_sat, C97_sat. *)
Example C100_sat : reordered ex80_train ex80_train' ex80_targets ex80_targets' 3 [] (fun a => 2 - a)%nat /\
  same_batch 3 2 (fun a => 2 - a)%nat [2; 0]%nat [2; 0]%nat /\ same_batch 3 2 (fun a => 2 - a)%nat [2; 1]%nat [1; 0]%nat /\
  (exists w0, nn_init false (rows_of ex80_train') 2 "exact" [] = Ok w0) /\ full_noise ex84_store ex84 = HomoscedasticNoise (1/100) /\
  values_only ex93_opt ex84_store ex84 ["length_scale"] [(Fin (1/2), Fin 2)].
Proof.
  assert (B1 : in_box [1] [(Fin (1/2), Fin 2)]) by (constructor; [split; intros C; inversion C; lra|constructor]).
  assert (B2 : in_box [3/2] [(Fin (1/2), Fin 2)]) by (constructor; [split; intros C; inversion C; lra|constructor]).
  split. { destruct C80_sat as (knn & dist & w & w' & H). decompose [and] H. assumption. }
  split.
  { right. split; [|split].
    - split; [reflexivity|]. split; [repeat constructor; cbn; intuition lia|]. intros a [<-|[<-|[]]]; cbn; auto.
    - split; [reflexivity|]. split; [repeat constructor; cbn; intuition lia|]. intros a [<-|[<-|[]]]; cbn; auto.
    - intros a Ha. destruct a as [|[|[|a]]]; [| | |lia]; cbn; intuition lia. }
  split.
  { right. split; [|split].
    - split; [reflexivity|]. split; [repeat constructor; cbn; intuition lia|]. intros a [<-|[<-|[]]]; cbn; auto.
    - split; [reflexivity|]. split; [repeat constructor; cbn; intuition lia|]. intros a [<-|[<-|[]]]; cbn; auto.
    - intros a Ha. destruct a as [|[|[|a]]]; [| | |lia]; cbn; intuition lia. }
  split; [eexists; reflexivity|]. split; [reflexivity|].
  intros f f' D. destruct (D _ B1) as (v & E1 & E1'). destruct (D _ B2) as (w & E2 & E2').
  unfold ex93_opt. rewrite E1, E2, E1', E2'. reflexivity.
Qed.

(** classify_any, any number of classes (labels need not be one-hot): reordering the training rows keeps the scores of untied test rows. *)
Theorem C81_classify_order : forall gamma kv ls, exact_solver ls -> forall knn hnsw dist, sklearn_ok knn dist ->
  forall en method kw w en' method' kw' w' g K cur test train train' labels labels' N M n C p,
  lower method = "exact" -> euclidean_kw kw -> nn_init en (rows_of train) n method kw = Ok w ->
  lower method' = "exact" -> euclidean_kw kw' -> nn_init en' (rows_of train') n method' kw' = Ok w' -> (0 < n <= N /\ 0 < M)%nat -> S C <> n ->
  dataset test M -> dataset train N -> ndim test = ndim train -> feature_count test = feature_count train ->
  lk_ok K (feature_count train) cur [] -> uniform_noise (gp_noise g) -> sound_noise (gp_noise g) train N M n ->
  shape labels = [N; S C] -> reordered train train' labels labels' N [S C] p ->
  exists out out',
    work_classify_any ls knn hnsw (Univariate (lib_model gamma kv g K cur)) test train w labels = Ok out /\
    work_classify_any ls knn hnsw (Univariate (lib_model gamma kv g K cur)) test train' w' labels' = Ok out' /\
    shape out = [M; S C] /\ shape out' = [M; S C] /\
    forall x c, (x < M)%nat -> (c < S C)%nat -> no_ties test train N x -> at_ out' [x; c] = at_ out [x; c].
Proof. intros gamma kv ls EX knn hnsw dist Hsk. exact (classify_reordered ls EX (fun _ _ => (0, 0)) gamma kv knn hnsw dist Hsk). Qed.
Print Assumptions C81_classify_order.

(** make_classifier on reordered training data, any number of classes, sampled or not: the same trained model. *)
Theorem C100_make_classifier : forall ls, exact_solver ls -> forall sld eps gamma kv knn hnsw dist, sklearn_ok knn dist ->
  forall en method kw w w0 train train' labels labels' N n r lo hi cl bc draw draw' s F l draws names x0 bounds opt p v0,
  lower method = "exact" -> euclidean_kw kw -> nn_init en (rows_of train) n method kw = Ok w -> nn_init en (rows_of train') n method kw = Ok w0 ->
  (n + 1 <= N)%nat -> (0 < n)%nat ->
  dataset train N -> distinct_rows train N (fun i => i) -> one_hot labels N (S r) lo hi cl -> lo < hi ->
  reordered train train' labels labels' N [S r] p -> (forall a, (a < N)%nat -> no_ties train train N a) ->
  (forall j pop c, (c <= List.length pop)%nat -> NoDup pop -> valid_choice pop c (draw j pop c)) ->
  (forall j pop c, (c <= List.length pop)%nat -> NoDup pop -> valid_choice pop c (draw' j pop c)) ->
  (N <= bc)%nat \/ same_draws N p (fun c => c) cl (fun a => cl (p a)) draw draw' ->
  model_ok s F -> bounds_ok s F -> positive_bounds s F -> leading_free s (k_ls (m_kernel (f_attr F))) ->
  get_opt_params s (f_attr F) = Ok (names, x0, bounds) -> (f_kind F = FixedScale \/ ~ In "noise" names) ->
  (forall b, trainable s F train b n) -> full_noise s F = HomoscedasticNoise v0 -> 0 <= v0 ->
  scores_classes l -> model_fixed s (f_attr F) = Ok false -> (1 <= r)%nat -> S r <> n ->
  (exists i, contested train N n cl i) -> (N <= bc)%nat \/ (class_number N cl <= bc)%nat -> values_only opt s F names bounds ->
  forall s' F' w',
  train_classifier ls sld eps gamma kv opt knn hnsw en train labels n bc method kw draw s F l draws = Ok (s', F', w') ->
  train_classifier ls sld eps gamma kv opt knn hnsw en train' labels' n bc method kw draw' s F l draws = Ok (s', F', w0).
Proof.
  intros ls EX sld eps gamma kv knn hnsw dist Hsk en method kw w w0 train train' labels labels' N n r lo hi cl bc draw draw' s F l draws names x0 bounds opt p v0
    Hm He Hi Hi0 Hn Hn0 D DR OH LH RO NT HD HD' SD MO BO PB LF EO SK TR HN Hv SL MF R1 RNn CT CN VO s' F' w' ET.
  destruct (train_moved ls EX sld eps gamma kv knn hnsw dist Hsk en method kw w w0 train train' labels labels' labels' N n r lo hi cl bc draw draw'
    s F l draws names x0 bounds opt p (fun c => c) v0) as (R & E1 & E2); auto.
  - split; [split; auto|]. destruct RO as (_ & _ & SL1 & _). destruct OH as (_ & SH & _).
    assert (S' : shape labels' = [N; S r]) by congruence. split; [exact S'|]. split; [exact S'|]. reflexivity.
  - eapply nn_of_moved; eauto.
  - rewrite E1 in ET. rewrite E2. destruct R as [m|e]; cbn [bind] in *; [|discriminate]. injection ET as <- <- _. reflexivity.
Qed.
Print Assumptions C100_make_classifier.

(** do_classify end to end on reordered training data: the same trained model, and the same scores of untied test rows. *)
Theorem C100_do_classify : forall ls, exact_solver ls -> forall sld eps gamma kv knn hnsw dist, sklearn_ok knn dist ->
  forall en method kw w w0 train train' labels labels' N n r lo hi cl bc draw draw' test M s F l draws names x0 bounds opt tried p v0,
  lower method = "exact" -> euclidean_kw kw -> nn_init en (rows_of train) n method kw = Ok w -> nn_init en (rows_of train') n method kw = Ok w0 ->
  (n + 1 <= N /\ 0 < M)%nat -> (0 < n)%nat ->
  dataset train N -> distinct_rows train N (fun i => i) -> one_hot labels N (S r) lo hi cl -> lo < hi ->
  reordered train train' labels labels' N [S r] p -> (forall a, (a < N)%nat -> no_ties train train N a) ->
  (forall j pop c, (c <= List.length pop)%nat -> NoDup pop -> valid_choice pop c (draw j pop c)) ->
  (forall j pop c, (c <= List.length pop)%nat -> NoDup pop -> valid_choice pop c (draw' j pop c)) ->
  (N <= bc)%nat \/ same_draws N p (fun c => c) cl (fun a => cl (p a)) draw draw' ->
  dataset test M -> ndim test = ndim train -> feature_count test = feature_count train ->
  model_ok s F -> bounds_ok s F -> positive_bounds s F -> leading_free s (k_ls (m_kernel (f_attr F))) ->
  get_opt_params s (f_attr F) = Ok (names, x0, bounds) -> (f_kind F = FixedScale \/ ~ In "noise" names) ->
  (forall b, trainable s F train b n) -> full_noise s F = HomoscedasticNoise v0 -> 0 <= v0 ->
  scores_classes l -> model_fixed s (f_attr F) = Ok false -> (1 <= r)%nat -> S r <> n ->
  (exists i, contested train N n cl i) -> (N <= bc)%nat \/ (class_number N cl <= bc)%nat ->
  returns_best opt s F names bounds tried -> values_only opt s F names bounds ->
  exists s' F' out out',
    train_and_classify ls sld eps gamma kv opt knn hnsw en test train labels n bc method kw draw s F l draws = Ok (s', F', w, out) /\
    train_and_classify ls sld eps gamma kv opt knn hnsw en test train' labels' n bc method kw draw' s F l draws = Ok (s', F', w0, out') /\
    shape out = [M; S r] /\ shape out' = [M; S r] /\
    forall x c, (x < M)%nat -> (c < S r)%nat -> no_ties test train N x -> at_ out' [x; c] = at_ out [x; c].
Proof.
  intros ls EX sld eps gamma kv knn hnsw dist Hsk en method kw w w0 train train' labels labels' N n r lo hi cl bc draw draw' test M s F l draws names x0 bounds opt tried p v0
    Hm He Hi Hi0 Hn Hn0 D DR OH LH RO NT HD HD' SD D1 ND FC MO BO PB LF EO SK TR HN Hv SL MF R1 RNn CT CN OPT VO.
  assert (NN : forall x i, 0 <= noise_at (full_noise s F) None x i) by (intros; rewrite HN; exact Hv).
  destruct (C87_make_classifier_partial ls EX sld eps gamma kv knn hnsw dist Hsk en method kw w train labels N n r lo hi cl bc draw
    Hm He Hi (proj1 Hn) Hn0 D DR OH LH HD s F l draws names x0 bounds opt tried MO BO PB LF EO SK TR)
    as (idx & q & x & s' & F' & v & _ & _ & _ & E & _ & _ & _ & TR' & NN' & ET); auto.
  pose proof (C100_make_classifier ls EX sld eps gamma kv knn hnsw dist Hsk en method kw w w0 train train' labels labels' N n r lo hi cl bc draw draw'
      s F l draws names x0 bounds opt p v0 Hm He Hi Hi0 (proj1 Hn) Hn0 D DR OH LH RO NT HD HD' SD MO BO PB LF EO SK TR HN Hv SL MF R1 RNn CT CN VO _ _ _ ET) as ET'.
  destruct (noise_stays_homo s F names bounds _ s' F' v0 E HN) as (v' & HN').
  destruct (TR' 0%nat) as (B' & (K & L & OK) & _).
  assert (V' : 0 <= v') by (specialize (NN' 0%nat 0%nat Hn0); rewrite HN' in NN'; exact NN').
  assert (GN : gp_noise (gp_bound s' F') = HomoscedasticNoise v') by (unfold gp_bound; rewrite B'; exact HN').
  destruct (C81_classify_order gamma kv ls EX knn hnsw dist Hsk en method kw w en method kw w0 (gp_bound s' F') K (reals s') test train train' labels labels' N M n r p)
    as (out & out' & E1 & E2 & S1 & S2 & H); auto.
  { lia. }
  { right. exists v'. exact GN. }
  { right. split; [|exact DR]. intros. rewrite GN. exact V'. }
  { apply OH. }
  exists s', F', out, out'. split; [|split].
  - unfold train_and_classify. rewrite ET. cbn [bind]. rewrite (full_classify_lk ls gamma kv knn hnsw s' F' K) by auto. rewrite E1. reflexivity.
  - unfold train_and_classify. rewrite ET'. cbn [bind]. rewrite (full_classify_lk ls gamma kv knn hnsw s' F' K) by auto. rewrite E2. reflexivity.
  - auto.
Qed.
Print Assumptions C100_do_classify.

(** The data of C87_sat (points 0, 1, 3, 7) reversed; the samplers draw the first rows in the original order.  The other hypotheses: C84_sat,
    C87_sat, C93_sat, C97_sat. *)
Definition ex100_train' : nd R := mkNd [4%nat] (fun idx => match idx with [O] => 7 | [1%nat] => 3 | [2%nat] => 1 | _ => 0 end).
Definition ex100_labels' : nd R := mkNd [4; 2]%nat (fun idx => match idx with [i; c] => if (c =? ex87_cl (3 - i))%nat then 1 else -1 | _ => 0 end).
Definition ex100_rev (a : nat) : nat := (3 - a)%nat.
Definition ex100_draw' (j : nat) (pop : list nat) (k : nat) : list nat :=
  if forallb (fun a => (a <? 4)%nat) pop then map ex100_rev (ex98_draw j (map ex100_rev pop) k) else firstn k pop.
Example C100_classify_sat : reordered ex87_train ex100_train' ex87_labels ex100_labels' 4 [2%nat] ex100_rev /\
  (forall a, (a < 4)%nat -> no_ties ex87_train ex87_train 4 a) /\ (exists w0, nn_init false (rows_of ex100_train') 3 "exact" [] = Ok w0) /\
  (forall j pop c, (c <= List.length pop)%nat -> NoDup pop -> valid_choice pop c (ex100_draw' j pop c)) /\
  same_draws 4 ex100_rev (fun c => c) ex87_cl (fun a => ex87_cl (ex100_rev a)) ex98_draw ex100_draw' /\
  nth_class 4 ex87_cl 1 1 /\ nth_class 4 (fun a => ex87_cl (ex100_rev a)) 1 1.
Proof.
  assert (RV : forall a, (a < 4)%nat -> ex100_rev (ex100_rev a) = a /\ (ex100_rev a < 4)%nat) by (intros a Ha; unfold ex100_rev; lia).
  assert (FB : forall pop, forallb (fun a => (a <? 4)%nat) pop = true <-> forall a, In a pop -> (a < 4)%nat).
  { intros pop. rewrite forallb_forall. split; intros H a Ha; specialize (H a Ha); apply Nat.ltb_lt; exact H. }
  assert (MR : forall pop a, (forall a, In a pop -> (a < 4)%nat) -> (a < 4)%nat -> (In a (map ex100_rev pop) <-> In (ex100_rev a) pop)).
  { intros pop a B Ha. rewrite in_map_iff. split.
    - intros (b & <- & Hb). rewrite (proj1 (RV b (B b Hb))). exact Hb.
    - intros H. exists (ex100_rev a). split; [apply RV; auto|exact H]. }
  assert (DV : forall j pop c, (c <= List.length pop)%nat -> NoDup pop -> valid_choice pop c (ex98_draw j pop c)) by apply C98_draw_sat.
  assert (NDm : forall pop, (forall a, In a pop -> (a < 4)%nat) -> NoDup pop -> NoDup (map ex100_rev pop)).
  { intros pop B ND. induction ND as [|a l Hin ND IH]; cbn [map]; constructor.
    - intros X. apply in_map_iff in X as (b & E & Hb). apply Hin. replace a with b; [exact Hb|].
      assert ((a < 4)%nat) by (apply B; left; auto). assert ((b < 4)%nat) by (apply B; right; auto). unfold ex100_rev in E. lia.
    - apply IH. intros b Hb. apply B. right. exact Hb. }
  split.
  { split; [split; intros; unfold ex100_rev in *; lia|]. split; [reflexivity|]. split; [reflexivity|]. intros a Ha. split.
    - intros f Hf. unfold feature, ex87_train, ex100_train', ex100_rev. cbn [shape at_]. destruct a as [|[|[|[|a]]]]; [| | | |lia]; reflexivity.
    - intros e He. destruct (inb_inv1 _ _ He) as (c & -> & Hc). unfold ex87_labels, ex100_labels', ex100_rev; cbn [at_]; reflexivity. }
  split.
  { intros a Ha i j Hi Hj Hij. unfold row_dist, sqdist, feature, feature_count, ex87_train in Hij. cbn [shape at_ rsum] in Hij.
    destruct a as [|[|[|[|a]]]]; [| | | |lia]; (destruct i as [|[|[|[|i]]]]; [| | | |lia]); (destruct j as [|[|[|[|j]]]]; [| | | |lia]); try reflexivity; exfalso; lra. }
  split; [eexists; reflexivity|]. split.
  { intros j pop c Hc ND. unfold ex100_draw'. destruct (forallb (fun a => (a <? 4)%nat) pop) eqn:E.
    - pose proof (proj1 (FB pop) E) as B. destruct (DV j (map ex100_rev pop) c) as (L1 & L2 & L3); [rewrite map_length; exact Hc|apply NDm; auto|].
      assert (B2 : forall a, In a (map ex100_rev pop) -> (a < 4)%nat) by (intros a X; apply in_map_iff in X as (b & <- & Hb); apply RV; auto).
      split; [rewrite map_length; exact L1|]. split; [apply NDm; [intros a X; apply B2, L3; exact X|exact L2]|].
      intros a X. apply in_map_iff in X as (b & <- & Hb). apply L3 in Hb. apply MR; auto.
    - split; [apply firstn_length_le; auto|]. split; [apply NoDup_firstn_; auto|]. intros a Ha. rewrite <- (firstn_skipn c pop). apply in_app_iff. auto. }
  split.
  { intros c j j' pop pop' k _ _ ND ND' B B' Hk H a Ha. unfold ex100_draw'. rewrite (proj2 (FB pop') B').
    assert (B2 : forall i, In i (map ex100_rev pop') -> (i < 4)%nat) by (intros i X; apply in_map_iff in X as (b & <- & Hb); apply RV; auto).
    assert (SS : forall i, In i (map ex100_rev pop') <-> In i pop).
    { intros i. split; intros Hi.
      - pose proof (B2 i Hi) as I4. rewrite MR in Hi by auto. apply H in Hi; [|apply RV; auto]. rewrite (proj1 (RV i I4)) in Hi. exact Hi.
      - apply MR; auto. apply H; [apply RV; auto|]. rewrite (proj1 (RV i (B i Hi))). exact Hi. }
    unfold ex98_draw. rewrite (ex98_same pop (map ex100_rev pop') SS).
    rewrite in_map_iff. split.
    - intros (b & <- & Hb). assert ((b < 4)%nat).
      { apply B. apply ex98_members. rewrite <- (firstn_skipn k (filter _ _)). apply in_app_iff. left. exact Hb. }
      rewrite (proj1 (RV b ltac:(auto))). exact Hb.
    - intros X. exists (ex100_rev a). split; [apply RV; auto|exact X]. }
  split; split; reflexivity.
Qed.
