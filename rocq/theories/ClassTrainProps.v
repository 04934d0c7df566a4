(** Training a classifier from data (C87). *)
From Coq Require Import Lia Lra.
From Verif Require Import Base NdModel RSum LinAlgModel LinAlgSpec GPModel NoiseModel MuyGPSModel GPSpec
  TensorModel TensorSpec HyperModel HyperSpec NamedModel NamedSpec KernelModel KernelSpec FlowSpec PointwiseSpec LibSpec
  LossModel LossSpec ChassisModel ChassisSpec MultiModel DriverModel ClassifyModel ClassifySpec NeighborsModel NeighborsSpec NeighborsProofs BatchProofs
  WorkModel WorkSpec WorkProps TrainModel TrainSpec TrainProofs3 TrainProps ClassTrainModel ClassTrainSpec ClassTrainProofs.
Local Open Scope R_scope.
Local Open Scope string_scope.

(** * C87 *)
(** make_classifier with real training: a nonempty batch of distinct rows whose nearest other rows belong to two classes; the returned
    model is the best model the optimizer tried on the leave-one-out loss of that batch (class scores are kriging means of the
    neighbours' labels).  Its scale is not optimized. *)
Theorem C87_make_classifier_partial : forall ls, exact_solver ls -> forall sld eps gamma kv knn hnsw dist, sklearn_ok knn dist ->
  forall en method kw w train labels N n r lo hi cl bc draw,
  lower method = "exact" -> euclidean_kw kw -> nn_init en (rows_of train) n method kw = Ok w -> (n + 1 <= N)%nat -> (0 < n)%nat ->
  dataset train N -> distinct_rows train N (fun i => i) -> one_hot labels N (S r) lo hi cl -> lo < hi ->
  (forall j pop c, (c <= List.length pop)%nat -> NoDup pop -> valid_choice pop c (draw j pop c)) ->
  forall s F l draws names x0 bounds opt tried,
  model_ok s F -> bounds_ok s F -> positive_bounds s F -> leading_free s (k_ls (m_kernel (f_attr F))) ->
  get_opt_params s (f_attr F) = Ok (names, x0, bounds) -> (f_kind F = FixedScale \/ ~ In "noise" names) ->
  (forall b, trainable s F train b n) -> (forall x i, 0 <= noise_at (full_noise s F) None x i) ->
  scores_classes l -> model_fixed s (f_attr F) = Ok false -> (1 <= r)%nat -> S r <> n ->
  (exists i, contested train N n cl i) -> (N <= bc)%nat \/ (class_number N cl <= bc)%nat ->
  returns_best opt s F names bounds tried ->
  exists idx q x s' F' v,
    (0 < List.length idx)%nat /\ contested_batch train N n cl bc idx q /\
    in_box x bounds /\ new_muygps s F names bounds (combine names (map Fin x)) = Ok (s', F') /\
    optimized_model s F (combine names (map Fin x)) s' F' /\
    loo_class_value gamma kv eps s' F' l train labels (List.length idx) n (S r) (fun i => nth i idx O) q v /\
    (exists f,
      (forall y, in_box y bounds -> exists s'' F'' vy, new_muygps s F names bounds (combine names (map Fin y)) = Ok (s'', F'') /\
         loo_class_value gamma kv eps s'' F'' l train labels (List.length idx) n (S r) (fun i => nth i idx O) q vy /\ f (combine names y) = Ok vy) /\
      (forall y, tried f y -> in_box y bounds -> exists vy, f (combine names y) = Ok vy /\ vy <= v)) /\
    (forall b, trainable s' F' train b n) /\
    (forall x i, (i < n)%nat -> 0 <= noise_at (full_noise s' F') None x i) /\
    train_classifier ls sld eps gamma kv opt knn hnsw en train labels n bc method kw draw s F l draws = Ok (s', F', w).
Proof.
  intros ls EX sld eps gamma kv knn hnsw dist Hsk en method kw w train labels N n r lo hi cl bc draw Hm He Hi Hn Hn0 D DR OH LH HD
    s F l draws names x0 bounds opt tried MO BO PB LF EO SK TR NN SL MF R1 RN CT CN OPT.
  eapply train_classifier_ok; eauto.
Qed.
Print Assumptions C87_make_classifier_partial.

(** The cross entropy loss of one-hot labels with a positive and a nonpositive value is minus the total (clipped) log probability of the
    true classes. *)
Theorem C87_cross_entropy_true_class : forall eps labels N r lo hi cl b c score, one_hot labels N r lo hi cl -> lo <= 0 < hi ->
  (forall x, (x < b)%nat -> (c x < N)%nat) ->
  class_loss eps CrossEntropy b r (fun x j => at_ labels [c x; j]) score =
  Some (rsum b (fun x => - ln (Rmin (Rmax (prob r (score x) (cl (c x))) eps) (1 - eps)))).
Proof.
  intros eps labels N r lo hi cl b c score (_ & _ & OH) LH HC. cbn [class_loss]. f_equal. apply rsum_ext. intros x Hx.
  destruct (OH (c x) (HC x Hx)) as [Hl Hv]. rewrite (rsum_single r _ (cl (c x)) Hl).
  - rewrite Hv by auto. rewrite Nat.eqb_refl. unfold Rltb. destruct (Rlt_dec 0 hi); [reflexivity|lra].
  - intros j Hj Hne. rewrite Hv by auto. replace (j =? cl (c x))%nat with false by (symmetry; apply Nat.eqb_neq; auto).
    unfold Rltb. destruct (Rlt_dec 0 lo); [lra|reflexivity].
Qed.
Print Assumptions C87_cross_entropy_true_class.

(** A model with nothing to optimize is returned as it is, with the lookup. *)
Theorem C87_fixed_model : forall ls sld eps gamma kv knn hnsw opt en method kw w train labels n bc draw s F l draws,
  nn_init en (rows_of train) n method kw = Ok w -> model_fixed s (f_attr F) = Ok true ->
  train_classifier ls sld eps gamma kv opt knn hnsw en train labels n bc method kw draw s F l draws = Ok (s, F, w).
Proof. intros. unfold train_classifier. rewrite H. cbn [bind]. rewrite H0. reflexivity. Qed.
Print Assumptions C87_fixed_model.

(** When no training row has neighbours of two classes (well separated classes), or batch_count is smaller than the number of classes,
    the batch is empty and training with the default cross entropy loss raises ValueError (for every optimizer that lets an objective's
    ValueError through). *)
Theorem C87_separated_refuted : forall ls, exact_solver ls -> forall sld eps gamma kv knn hnsw dist, sklearn_ok knn dist ->
  forall en method kw w train labels N n r lo hi cl bc draw s F draws names x0 bounds opt,
  lower method = "exact" -> euclidean_kw kw -> nn_init en (rows_of train) n method kw = Ok w -> (n + 1 <= N)%nat -> (0 < n)%nat ->
  dataset train N -> distinct_rows train N (fun i => i) -> one_hot labels N (S r) lo hi cl -> lo < hi ->
  (forall j pop c, (c <= List.length pop)%nat -> NoDup pop -> valid_choice pop c (draw j pop c)) ->
  model_ok s F -> bounds_ok s F -> positive_bounds s F -> leading_free s (k_ls (m_kernel (f_attr F))) ->
  get_opt_params s (f_attr F) = Ok (names, x0, bounds) -> (f_kind F = FixedScale \/ ~ In "noise" names) ->
  (forall b, trainable s F train b n) -> model_fixed s (f_attr F) = Ok false -> S r <> n ->
  ((forall i q, (i < N)%nat -> nearest_others train N i n q -> forall a, (a < n)%nat -> cl (q a) = cl (q O)) \/
   ((bc < N)%nat /\ (bc < class_number N cl)%nat)) ->
  (forall f, (forall y, in_box y bounds -> f (combine names y) = Err ValueError) -> opt s F f = Err ValueError) ->
  train_classifier ls sld eps gamma kv opt knn hnsw en train labels n bc method kw draw s F CrossEntropy draws = Err ValueError.
Proof.
  intros ls EX sld eps gamma kv knn hnsw dist Hsk en method kw w train labels N n r lo hi cl bc draw s F draws names x0 bounds opt.
  intros. eapply no_contested_fails; eauto.
Qed.
Print Assumptions C87_separated_refuted.

(** do_classify with two classes and a homoscedastic noise model: whatever training returned, a test row whose nearest training rows share
    a class gets that class, every other row the kriging mean, under the covariance and noise of the trained model, of their labels. *)
Theorem C87_do_classify_partial : forall ls, exact_solver ls -> forall sld eps gamma kv knn hnsw dist, sklearn_ok knn dist ->
  forall en method kw w train labels N n lo hi cl bc draw,
  lower method = "exact" -> euclidean_kw kw -> nn_init en (rows_of train) n method kw = Ok w -> (n + 1 <= N)%nat -> (0 < n)%nat ->
  dataset train N -> distinct_rows train N (fun i => i) -> one_hot labels N 2 lo hi cl -> lo < hi ->
  (forall j pop c, (c <= List.length pop)%nat -> NoDup pop -> valid_choice pop c (draw j pop c)) ->
  forall test M, (0 < M)%nat -> dataset test M -> ndim test = ndim train -> feature_count test = feature_count train ->
  forall s F l draws names x0 bounds opt tried v0,
  model_ok s F -> bounds_ok s F -> positive_bounds s F -> leading_free s (k_ls (m_kernel (f_attr F))) ->
  get_opt_params s (f_attr F) = Ok (names, x0, bounds) -> (f_kind F = FixedScale \/ ~ In "noise" names) ->
  (forall b, trainable s F train b n) -> full_noise s F = HomoscedasticNoise v0 -> 0 <= v0 ->
  scores_classes l -> model_fixed s (f_attr F) = Ok false -> n <> 2%nat ->
  (exists i, contested train N n cl i) -> (N <= bc)%nat \/ (class_number N cl <= bc)%nat ->
  returns_best opt s F names bounds tried ->
  exists idx q x s' F' K v out,
    (0 < List.length idx)%nat /\ contested_batch train N n cl bc idx q /\ in_box x bounds /\
    optimized_model s F (combine names (map Fin x)) s' F' /\
    loo_class_value gamma kv eps s' F' l train labels (List.length idx) n 2 (fun i => nth i idx O) q v /\
    full_lib s' F' = Some K /\
    train_and_classify ls sld eps gamma kv opt knn hnsw en test train labels n bc method kw draw s F l draws = Ok (s', F', w, out) /\
    class_predictions (lk_cov gamma kv K (feature_count train) (reals s') []) (full_noise s' F') test train N M n lo hi cl out.
Proof.
  intros ls EX sld eps gamma kv knn hnsw dist Hsk en method kw w train labels N n lo hi cl bc draw Hm He Hi Hn Hn0 D DR OH LH HD
    test M MP D1 ND FC s F l draws names x0 bounds opt tried v0 MO BO PB LF EO SK TR HN Hv SL MF RN CT CN OPT.
  destruct (C87_make_classifier_partial ls EX sld eps gamma kv knn hnsw dist Hsk en method kw w train labels N n 1 lo hi cl bc draw
    Hm He Hi Hn Hn0 D DR OH LH HD s F l draws names x0 bounds opt tried MO BO PB LF EO SK TR) 
    as (idx & q & x & s' & F' & v & POS & GB & BX & E & O' & LV & _ & TR' & NN & ET); auto.
  { intros. rewrite HN. exact Hv. }
  destruct (noise_stays_homo s F names bounds _ s' F' v0 E HN) as (v' & HN').
  destruct (TR' 0%nat) as (B' & (K & L & OK) & _).
  destruct (trained_classes ls EX gamma kv knn hnsw dist Hsk en method kw w s' F' K v' train test labels N M n lo hi cl) as (out & EO' & P); auto.
  { lia. }
  { specialize (NN 0%nat 0%nat Hn0). rewrite HN' in NN. exact NN. }
  exists idx, q, x, s', F', K, v, out. split; [exact POS|]. split; [exact GB|]. split; [exact BX|]. split; [exact O'|]. split; [exact LV|].
  split; [exact L|]. split; [|exact P]. unfold train_and_classify. rewrite ET. cbn [bind]. rewrite EO'. reflexivity.
Qed.
Print Assumptions C87_do_classify_partial.

(** The hypotheses hold for training points 0, 1, 3, 7 of classes 0, 1, 0, 1 (labels -1, 1) with three neighbours. *)
Definition ex87_train : nd R := mkNd [4%nat] (fun idx => match idx with [O] => 0 | [1%nat] => 1 | [2%nat] => 3 | _ => 7 end).
Definition ex87_cl (i : nat) : nat := match i with O => 0 | 1 => 1 | 2 => 0 | _ => 1 end.
Definition ex87_labels : nd R := mkNd [4; 2]%nat (fun idx => match idx with [i; c] => if (c =? ex87_cl i)%nat then 1 else -1 | _ => 0 end).

Example C87_sat : exists knn dist w, sklearn_ok knn dist /\ lower "exact" = "exact" /\ euclidean_kw [] /\
  nn_init false (rows_of ex87_train) 3 "exact" [] = Ok w /\ (3 + 1 <= 4)%nat /\ (0 < 3)%nat /\ dataset ex87_train 4 /\
  distinct_rows ex87_train 4 (fun i => i) /\ one_hot ex87_labels 4 2 (-1) 1 ex87_cl /\ -1 <= 0 < 1 /\
  (forall (j : nat) pop c, (c <= List.length pop)%nat -> NoDup pop -> valid_choice pop c (firstn c pop)) /\
  dataset ex80_test 2 /\ ndim ex80_test = ndim ex87_train /\ feature_count ex80_test = feature_count ex87_train /\
  (forall b, trainable ex84_store ex84 ex87_train b 3) /\ full_noise ex84_store ex84 = HomoscedasticNoise (1/100) /\
  scores_classes CrossEntropy /\ contested ex87_train 4 3 ex87_cl 0 /\ (class_number 4 ex87_cl <= 2)%nat.
Proof.
  exists ref_knn, (fun _ => ref_dist). eexists. split; [apply ref_ok|]. split; [reflexivity|]. split; [unfold euclidean_kw; cbn; auto|].
  split; [reflexivity|]. split; [lia|]. split; [lia|]. split; [left; reflexivity|]. split.
  { intros i j Hi Hj Hij. exists O. split; [apply Nat.lt_0_1|]. unfold feature, ex87_train. cbn [shape at_].
    destruct i as [|[|[|[|i]]]]; [| | | |lia]; (destruct j as [|[|[|[|j]]]]; [| | | |lia]); try lia; lra. }
  split.
  { split; [lra|]. split; [reflexivity|]. intros i Hi. split; [|reflexivity].
    destruct i as [|[|[|[|i]]]]; cbn; lia. }
  split; [lra|]. split.
  { intros _ pop c Hc ND. split; [apply firstn_length_le; auto|]. split.
    - revert c Hc. induction ND as [|a l Hin ND IH]; intros [|c] Hc; cbn; constructor.
      + intros C. apply Hin. rewrite <- (firstn_skipn c l). apply in_app_iff. auto.
      + apply IH. cbn in Hc. lia.
    - intros a Ha. rewrite <- (firstn_skipn c pop). apply in_app_iff. auto. }
  split; [left; reflexivity|]. split; [reflexivity|]. split; [reflexivity|]. split.
  { intros b. split; [reflexivity|]. split.
    - eexists. split; [reflexivity|]. split; [reflexivity|]. split; [apply Nat.lt_0_1|]. split; [intros f _; cbn; lra|reflexivity].
    - split; [exact I|]. cbn. lia. }
  split; [reflexivity|]. split; [left; reflexivity|]. split; [|cbn; lia].
  split; [lia|]. intros q (Q1 & Q2 & _).
  assert (E : forall a, (a < 3)%nat -> (exists b, (b < 3)%nat /\ ex87_cl (q a) <> ex87_cl (q b)) \/ forall b, (b < 3)%nat -> ex87_cl (q a) = ex87_cl (q b)).
  { intros a Ha. destruct (Nat.eq_dec (ex87_cl (q a)) (ex87_cl (q 0%nat))); [|left; exists 0%nat; split; [lia|auto]].
    destruct (Nat.eq_dec (ex87_cl (q a)) (ex87_cl (q 1%nat))); [|left; exists 1%nat; split; [lia|auto]].
    destruct (Nat.eq_dec (ex87_cl (q a)) (ex87_cl (q 2%nat))); [|left; exists 2%nat; split; [lia|auto]].
    right. intros b Hb. destruct b as [|[|[|b]]]; auto; lia. }
  destruct (E 0%nat ltac:(lia)) as [(b & Hb & NE)|EQ]; [exists 0%nat, b; split; [lia|auto]|exfalso].
  pose proof (Q1 0%nat ltac:(lia)) as A0. pose proof (Q1 1%nat ltac:(lia)) as A1. pose proof (Q1 2%nat ltac:(lia)) as A2.
  pose proof (Q2 0%nat 1%nat ltac:(lia) ltac:(lia)) as B0. pose proof (Q2 0%nat 2%nat ltac:(lia) ltac:(lia)) as B1. pose proof (Q2 1%nat 2%nat ltac:(lia) ltac:(lia)) as B2.
  pose proof (EQ 1%nat ltac:(lia)) as E1. pose proof (EQ 2%nat ltac:(lia)) as E2.
  destruct (q 0%nat) as [|[|[|[|?]]]]; try lia; destruct (q 1%nat) as [|[|[|[|?]]]]; try lia; destruct (q 2%nat) as [|[|[|[|?]]]]; try lia;
    cbn in E1, E2; try discriminate; lia.
Qed.

(** One neighbour is never mixed; or a batch of one row for two classes. *)
Example C87_separated_sat :
  (forall i q, (i < 4)%nat -> nearest_others ex87_train 4 i 1 q -> forall a, (a < 1)%nat -> ex87_cl (q a) = ex87_cl (q O)) /\
  ((1 < 4)%nat /\ (1 < class_number 4 ex87_cl)%nat) /\ (2 <> 1)%nat /\
  (forall b, trainable ex84_store ex84 ex87_train b 1) /\
  (let opt (s : store) (F : full) (f : dict R -> result R) := let! _ := f (combine ["length_scale"] [1]) in ex84_opt s F f in
   (forall f, (forall y, in_box y [(Fin (1/2), Fin 2)] -> f (combine ["length_scale"] y) = Err ValueError) ->
     opt ex84_store ex84 f = Err ValueError)).
Proof.
  split; [intros i q _ _ a Ha; replace a with O by lia; reflexivity|]. split; [split; [lia|cbn; lia]|]. split; [lia|]. split.
  { intros b. split; [reflexivity|]. split.
    - eexists. split; [reflexivity|]. split; [reflexivity|]. split; [apply Nat.lt_0_1|]. split; [intros f _; cbn; lra|reflexivity].
    - split; [exact I|]. cbn. lia. }
  intros opt f H. unfold opt. rewrite H; [reflexivity|]. constructor; [split; intros C; inversion C; lra|constructor].
Qed.
