(** Training one model per response from data (C88). *)
From Coq Require Import Lia Lra.
From Verif Require Import Base NdModel RSum LinAlgModel LinAlgSpec GPModel NoiseModel MuyGPSModel GPSpec ScaleSpec
  TensorModel TensorSpec HyperModel HyperSpec NamedModel NamedSpec KernelModel KernelSpec KernelCases FlowSpec PointwiseSpec LibSpec
  LossModel LossSpec ChassisModel ChassisSpec MultiModel DriverModel ClassifyModel ClassifySpec NeighborsModel NeighborsSpec NeighborsProofs BatchProofs
  WorkModel WorkSpec WorkProps TrainModel TrainSpec TrainProofs TrainProofs2 TrainProofs3 TrainProps ClassTrainModel ClassTrainSpec ClassTrainProofs ClassTrainProps
  MultiTrainModel MultiTrainSpec MultiTrainProofs MultiTrainProofs2 MultiTrainProofs3 MultiTrainProofs4 MultiTrainProofs5 MultiTrainProofs6.
Local Open Scope R_scope.
Local Open Scope string_scope.

(** * C88 *)
(** make_multivariate_regressor with a loss of the mean (mse, pseudo-Huber): one batch of different rows, each with its nearest other rows,
    serves all responses; model [i] is trained on response [i] alone (fixed models are kept), and its scale becomes the documented scale of
    response [i]; no model's parameters are changed by training the others, and only a non-positive scale stops it.  Missing: lool and
    looph (refuted on column responses, C79), one neighbour, models whose deformations need different tensors. *)
Theorem C88_make_multivariate_regressor_partial : forall ls, exact_solver ls -> forall sld eps gamma kv knn hnsw dist, sklearn_ok knn dist ->
  forall opt tried en method kw w train targets N n bc drawn s Fs l draws draws',
  lower method = "exact" -> euclidean_kw kw -> nn_init en (rows_of train) n method kw = Ok w -> (n + 1 <= N)%nat -> (1 < n)%nat ->
  dataset train N -> shape targets = [N; List.length Fs] -> distinct_rows train N (fun i => i) -> (0 < bc)%nat ->
  valid_choice (seq 0 N) bc drawn \/ (N <= bc)%nat ->
  (forall F, In F Fs -> documented s F train (Nat.min bc N) n) -> (forall F F', In F Fs -> In F' Fs -> same_tensors F F') ->
  ~ (forall F, In F Fs -> model_fixed s (f_attr F) = Ok true) -> mean_loss l -> trains opt tried s Fs ->
  exists idx q s' Fs' scs,
    List.length idx = Nat.min bc N /\ NoDup idx /\
    (forall i, (i < Nat.min bc N)%nat -> (nth i idx O < N)%nat /\ nearest_others train N (nth i idx O) n (q i)) /\
    extends s s' /\ List.length Fs' = List.length Fs /\ List.length scs = List.length Fs /\
    (forall i F F', nth_error Fs i = Some F -> nth_error Fs' i = Some F' ->
       trained_on gamma kv tried s F s' F' l train (response targets N i) (Nat.min bc N) n (fun i => nth i idx O) q /\
       exists K, full_lib s' F' = Some K /\
         scale_used F' (lk_cov gamma kv K (feature_count train) (reals s') []) (full_noise s' F') train (response targets N i)
           (Nat.min bc N) n q (nth i scs 0)) /\
    ((forall i, (i < List.length Fs)%nat -> 0 < nth i scs 0) ->
     train_multivariate_regressor ls sld eps gamma kv opt knn hnsw en train targets n bc method kw drawn s Fs l draws draws' =
       Ok (s', map (fun e => rescaled (fst e) (snd e)) (combine Fs' scs), w)) /\
    (~ (forall i, (i < List.length Fs)%nat -> 0 < nth i scs 0) ->
     train_multivariate_regressor ls sld eps gamma kv opt knn hnsw en train targets n bc method kw drawn s Fs l draws draws' = Err ValueError).
Proof.
  intros ls EX sld eps gamma kv knn hnsw dist Hsk opt tried en method kw w train targets N n bc drawn s Fs l draws draws'.
  intros Hm He Hi Hn N1 D HT DR Hbc VC DOC SAME NF ML OPT.
  destruct (multi_regressor_ok ls EX sld eps gamma kv knn hnsw dist Hsk opt tried en method kw w train targets N n bc drawn s Fs l draws draws')
    as (idx & q & s' & Fs' & scs & LEN & ND & NO & EXT & LF & LS & GD & ER); auto.
  exists idx, q, s', Fs', scs. rewrite ER. repeat (split; [assumption|]). split.
  { intros i F F' HF HF'. destruct (GD i F F' HF HF') as ((ix & nn & t & G & _) & SU). auto. }
  rewrite <- LS. rewrite <- forallb_pos. destruct (forallb _ scs); split; intros H; auto; congruence.
Qed.
Print Assumptions C88_make_multivariate_regressor_partial.

(** Targets that are not an (N, r) array with one model per column are refused. *)
Theorem C88_wrong_responses : forall ls sld eps gamma kv knn hnsw opt en method kw train targets n bc s Fs l draws,
  (forall N, shape targets <> [N; List.length Fs]) ->
  (forall drawn draws', train_multivariate_regressor ls sld eps gamma kv opt knn hnsw en train targets n bc method kw drawn s Fs l draws draws' = Err ValueError) /\
  (forall draw, train_multivariate_classifier ls sld eps gamma kv opt knn hnsw en train targets n bc method kw draw s Fs l draws = Err ValueError).
Proof. intros. split; intros; [apply multi_regressor_refused|apply multi_classifier_refused]; auto. Qed.
Print Assumptions C88_wrong_responses.

(** Models with nothing to optimize are returned as they are, with the lookup. *)
Theorem C88_fixed_models : forall ls sld eps gamma kv knn hnsw opt en method kw w train targets N n bc s Fs l draws,
  nn_init en (rows_of train) n method kw = Ok w -> shape targets = [N; List.length Fs] -> (forall F, In F Fs -> model_ok s F) ->
  (forall F, In F Fs -> model_fixed s (f_attr F) = Ok true) ->
  (forall drawn draws', train_multivariate_regressor ls sld eps gamma kv opt knn hnsw en train targets n bc method kw drawn s Fs l draws draws' = Ok (s, Fs, w)) /\
  (forall draw, train_multivariate_classifier ls sld eps gamma kv opt knn hnsw en train targets n bc method kw draw s Fs l draws = Ok (s, Fs, w)).
Proof.
  intros ls sld eps gamma kv knn hnsw opt en method kw w train targets N n bc s Fs l draws Hi HT MO AF.
  split; intros; [apply (multi_regressor_fixed ls sld eps gamma kv knn hnsw opt en method kw w train targets N)|
                  apply (multi_classifier_fixed ls sld eps gamma kv knn hnsw opt en method kw w train targets N)]; auto.
Qed.
Print Assumptions C88_fixed_models.

(** do_regress with one model per response and homoscedastic noise: the predictions are the kriging predictions of each response under its
    trained model, from the nearest training rows; the variance factor of a response is its new scale times the scale its model was
    constructed with (the new scale alone for the default, 1; refuted otherwise: the closures keep the construction scale). *)
Theorem C88_do_regress_partial : forall ls, exact_solver ls -> forall sld eps gamma kv knn hnsw dist, sklearn_ok knn dist ->
  forall opt tried en method kw w test train targets f N M n bc drawn s Fs l draws draws',
  lower method = "exact" -> euclidean_kw kw -> nn_init en (rows_of train) n method kw = Ok w -> (n + 1 <= N /\ 0 < M)%nat -> (1 < n)%nat ->
  shape test = [M; f] -> shape train = [N; f] -> shape targets = [N; List.length Fs] -> distinct_rows train N (fun i => i) -> (0 < bc)%nat ->
  valid_choice (seq 0 N) bc drawn \/ (N <= bc)%nat ->
  (forall F, In F Fs -> documented s F train (Nat.min bc N) n /\ f_var_scale F = f_scale F /\ exists v, full_noise s F = HomoscedasticNoise v) ->
  (forall F F', In F Fs -> In F' Fs -> same_tensors F F') ->
  ~ (forall F, In F Fs -> model_fixed s (f_attr F) = Ok true) -> mean_loss l -> trains opt tried s Fs ->
  exists idx q s' Fs' scs,
    List.length idx = Nat.min bc N /\ NoDup idx /\
    (forall i, (i < Nat.min bc N)%nat -> (nth i idx O < N)%nat /\ nearest_others train N (nth i idx O) n (q i)) /\
    extends s s' /\ List.length Fs' = List.length Fs /\ List.length scs = List.length Fs /\
    (forall i F F', nth_error Fs i = Some F -> nth_error Fs' i = Some F' ->
       trained_on gamma kv tried s F s' F' l train (response targets N i) (Nat.min bc N) n (fun i => nth i idx O) q /\
       exists K, full_lib s' F' = Some K /\
         scale_used F' (lk_cov gamma kv K (feature_count train) (reals s') []) (full_noise s' F') train (response targets N i)
           (Nat.min bc N) n q (nth i scs 0)) /\
    ((exists mean var, (forall i, (i < List.length Fs)%nat -> 0 < nth i scs 0) /\
       train_and_regress_multi ls sld eps gamma kv opt knn hnsw en test train targets n bc method kw drawn s Fs l draws draws' =
         Ok (s', map (fun e => rescaled (fst e) (snd e)) (combine Fs' scs), w, (mean, var)) /\
       multi_predictions gamma kv s' Fs' (fun i => nth i scs 0 * match nth_error Fs i with Some F => f_scale F | None => 0 end)
         test train targets N M n mean var) \/
     (exists i, (i < List.length Fs)%nat /\ nth i scs 0 <= 0) /\
     train_and_regress_multi ls sld eps gamma kv opt knn hnsw en test train targets n bc method kw drawn s Fs l draws draws' = Err ValueError).
Proof.
  intros ls EX sld eps gamma kv knn hnsw dist Hsk opt tried en method kw w test train targets f N M n bc drawn s Fs l draws draws'.
  intros. eapply multi_do_regress; eauto.
Qed.
Print Assumptions C88_do_regress_partial.

(** Fixed models predict with their own parameters; the variance factor is the square of a model's scale. *)
Theorem C88_do_regress_fixed_partial : forall ls, exact_solver ls -> forall sld eps gamma kv knn hnsw dist, sklearn_ok knn dist ->
  forall opt en method kw w test train targets f N M n bc drawn s Fs l draws draws',
  lower method = "exact" -> euclidean_kw kw -> nn_init en (rows_of train) n method kw = Ok w -> (0 < n <= N /\ 0 < M)%nat -> n <> 1%nat ->
  shape test = [M; f] -> shape train = [N; f] -> shape targets = [N; List.length Fs] -> distinct_rows train N (fun i => i) -> Fs <> [] ->
  (forall F, In F Fs -> model_ok s F /\ model_fixed s (f_attr F) = Ok true /\ f_bound F = model_make s (f_attr F) /\
     (exists K, full_lib s F = Some K /\ lk_ok K (feature_count train) (reals s) []) /\
     exists v, full_noise s F = HomoscedasticNoise v /\ 0 <= v) ->
  exists mean var,
    train_and_regress_multi ls sld eps gamma kv opt knn hnsw en test train targets n bc method kw drawn s Fs l draws draws' =
      Ok (s, Fs, w, (mean, var)) /\
    multi_predictions gamma kv s Fs (fun i => match nth_error Fs i with Some F => f_scale F * f_var_scale F | None => 0 end)
      test train targets N M n mean var.
Proof.
  intros ls EX sld eps gamma kv knn hnsw dist Hsk opt en method kw w test train targets f N M n bc drawn s Fs l draws draws'.
  intros. eapply multi_do_fixed; eauto.
Qed.
Print Assumptions C88_do_regress_fixed_partial.

(** make_multivariate_classifier with a loss of the mean: the batch rows have neighbours of two classes, and model [i] is trained on label
    column [i].  Missing: its default loss (refuted below). *)
Theorem C88_make_multivariate_classifier_partial : forall ls, exact_solver ls -> forall sld eps gamma kv knn hnsw dist, sklearn_ok knn dist ->
  forall opt tried en method kw w train labels N n r lo hi cl bc draw s Fs l draws,
  lower method = "exact" -> euclidean_kw kw -> nn_init en (rows_of train) n method kw = Ok w -> (n + 1 <= N)%nat -> (1 < n)%nat ->
  dataset train N -> distinct_rows train N (fun i => i) -> one_hot labels N (S r) lo hi cl -> lo < hi ->
  (forall j pop c, (c <= List.length pop)%nat -> NoDup pop -> valid_choice pop c (draw j pop c)) -> List.length Fs = S r ->
  (forall F b, In F Fs -> documented s F train b n) -> (forall F F', In F Fs -> In F' Fs -> same_tensors F F') ->
  ~ (forall F, In F Fs -> model_fixed s (f_attr F) = Ok true) -> mean_loss l ->
  (exists i, contested train N n cl i) -> (N <= bc)%nat \/ (class_number N cl <= bc)%nat -> trains opt tried s Fs ->
  exists idx q s' Fs',
    (0 < List.length idx)%nat /\ contested_batch train N n cl bc idx q /\
    extends s s' /\ List.length Fs' = List.length Fs /\
    (forall i F F', nth_error Fs i = Some F -> nth_error Fs' i = Some F' ->
       trained_on gamma kv tried s F s' F' l train (response labels N i) (List.length idx) n (fun i => nth i idx O) q) /\
    train_multivariate_classifier ls sld eps gamma kv opt knn hnsw en train labels n bc method kw draw s Fs l draws = Ok (s', Fs', w).
Proof.
  intros ls EX sld eps gamma kv knn hnsw dist Hsk opt tried en method kw w train labels N n r lo hi cl bc draw s Fs l draws.
  intros Hm He Hi Hn N1 D DR OH LH HD LR DOC SAME NF ML CT CN OPT.
  destruct (multi_classifier_ok ls EX sld eps gamma kv knn hnsw dist Hsk opt tried en method kw w train labels N n r lo hi cl bc draw s Fs l draws
    Hm He Hi Hn N1 D DR OH LH HD LR DOC SAME NF ML CT CN OPT) as (idx & q & s' & Fs' & A & B & C & LF & G & E).
  exists idx, q, s', Fs'. split; [exact A|]. split; [exact B|]. split; [exact C|]. split; [exact LF|]. split; [|exact E].
  intros i F F' HF HF'. destruct (G i F F' HF HF') as (ix & nn & t & T & _). exact T.
Qed.
Print Assumptions C88_make_multivariate_classifier_partial.

(** do_classify with one model per class and a loss of the mean: the models are trained as above, and test row x is predicted from its
    nearest training rows: if all of them or none of them are of class 0, the label row of the nearest; otherwise, for class c, the kriging
    mean of label column c under trained model c.  (With two classes the condition says that the rows share their class; with more it does
    not, C43.)  Missing: as for make_multivariate_classifier. *)
Theorem C88_do_classify_partial : forall ls, exact_solver ls -> forall sld eps gamma kv knn hnsw dist, sklearn_ok knn dist ->
  forall opt tried en method kw w test train labels f N M n r lo hi cl bc draw s Fs l draws,
  lower method = "exact" -> euclidean_kw kw -> nn_init en (rows_of train) n method kw = Ok w -> (n + 1 <= N /\ 0 < M)%nat -> (1 < n)%nat ->
  shape test = [M; f] -> shape train = [N; f] -> distinct_rows train N (fun i => i) -> one_hot labels N (S r) lo hi cl -> lo < hi ->
  (forall j pop c, (c <= List.length pop)%nat -> NoDup pop -> valid_choice pop c (draw j pop c)) -> List.length Fs = S r ->
  (forall F, In F Fs -> (forall b, documented s F train b n) /\ exists v, full_noise s F = HomoscedasticNoise v) ->
  (forall F F', In F Fs -> In F' Fs -> same_tensors F F') ->
  ~ (forall F, In F Fs -> model_fixed s (f_attr F) = Ok true) -> mean_loss l ->
  (exists i, contested train N n cl i) -> (N <= bc)%nat \/ (class_number N cl <= bc)%nat -> trains opt tried s Fs ->
  exists idx q s' Fs' out,
    (0 < List.length idx)%nat /\ contested_batch train N n cl bc idx q /\
    extends s s' /\ List.length Fs' = List.length Fs /\
    (forall i F F', nth_error Fs i = Some F -> nth_error Fs' i = Some F' ->
       trained_on gamma kv tried s F s' F' l train (response labels N i) (List.length idx) n (fun i => nth i idx O) q) /\
    train_and_classify_multi ls sld eps gamma kv opt knn hnsw en test train labels n bc method kw draw s Fs l draws = Ok (s', Fs', w, out) /\
    multi_class_predictions gamma kv s' Fs' test train N M n lo hi cl out.
Proof.
  intros ls EX sld eps gamma kv knn hnsw dist Hsk opt tried en method kw w test train labels f N M n r lo hi cl bc draw s Fs l draws.
  intros. eapply multi_do_classify; eauto.
Qed.
Print Assumptions C88_do_classify_partial.

(** The default loss of make_multivariate_classifier does not train: the cross entropy of a single label column does not depend on the
    predictions, so the objective given to the optimizer has the same value (or the same error) at every point of the box. *)
Theorem C88_default_classifier_loss_refuted : forall ls, exact_solver ls -> forall sld eps gamma kv train labels ix nn N b n r c q s F draws i t ti names x0 bounds,
  dataset train N -> shape labels = [N; r] -> (0 < b)%nat -> (1 < n)%nat -> shape ix = [b] ->
  (forall x, (x < b)%nat -> at_ ix [x] = Z.of_nat (c x) /\ (c x < N)%nat) -> index_matrix nn b n N q ->
  documented s F train b n -> loo_well_posed (full_noise s F) train b n c q ->
  get_opt_params s (f_attr F) = Ok (names, x0, bounds) -> (i < r)%nat ->
  full_train_tensors F ix nn train labels = Ok t -> response_tensors t n i = Ok ti ->
  forall x y, in_box x bounds -> in_box y bounds ->
    obj_fn ls sld eps gamma kv s F CrossEntropy [] None draws (tr_pair ti) (tr_cross ti) (tr_nn_targets ti) (tr_targets ti) (combine names x) =
    obj_fn ls sld eps gamma kv s F CrossEntropy [] None draws (tr_pair ti) (tr_cross ti) (tr_nn_targets ti) (tr_targets ti) (combine names y).
Proof.
  intros ls EX sld eps gamma kv train labels ix nn N b n r c q s F draws i t ti names x0 bounds.
  intros. eapply column_objective_const; eauto.
Qed.
Print Assumptions C88_default_classifier_loss_refuted.

(** ... and it is a ValueError when the batch column has only one label. *)
Theorem C88_one_label_refuted : forall eps p t b, shape p = [b; 1%nat] -> shape t = [b; 1%nat] -> 0 < eps < 1/2 ->
  (forall i j, (i < b)%nat -> (j < b)%nat -> (0 < at_ t [i; O] <-> 0 < at_ t [j; O])) -> cross_entropy_fn eps p t = Err ValueError.
Proof. intros eps p t b Sp St He H. apply (LossProofs.cross_entropy_column eps p t b Sp St He). exact H. Qed.
Print Assumptions C88_one_label_refuted.

(** scipy's minimizer and bayes_opt's maximizer are such optimizers if, on every objective, they return the best point they tried. *)
Theorem C88_scipy_trains : forall minimize (tried : (dict R -> result R) -> list R -> Prop) s Fs, (forall F, In F Fs -> model_ok s F) ->
  (forall F names x0 bounds, In F Fs -> get_opt_params s (f_attr F) = Ok (names, x0, bounds) ->
     forall f, (forall y, in_box y bounds -> exists v, f (combine names y) = Ok v) ->
     exists x, in_box x bounds /\ minimize (obj_fn_adapter f names) x0 bounds = Ok (map Fin x) /\
       forall y vx vy, tried f y -> in_box y bounds ->
         obj_fn_adapter f names x = Ok vx -> obj_fn_adapter f names y = Ok vy -> vx <= vy) ->
  trains (scipy_optimize minimize) tried s Fs.
Proof. exact scipy_trains. Qed.
Print Assumptions C88_scipy_trains.
Theorem C88_bayes_trains : forall maximize verbose okw (tried : (dict R -> result R) -> list R -> Prop) s Fs, (forall F, In F Fs -> model_ok s F) ->
  (forall F names x0 bounds, In F Fs -> get_opt_params s (f_attr F) = Ok (names, x0, bounds) ->
     exists plan, bayes_plan s F verbose okw = Ok plan /\
     forall f, (forall y, in_box y bounds -> exists v, f (combine names y) = Ok v) ->
     exists x, in_box x bounds /\ maximize f plan = Ok (combine names (map Fin x)) /\
       forall y vx vy, tried f y -> in_box y bounds -> f (combine names x) = Ok vx -> f (combine names y) = Ok vy -> vy <= vx) ->
  trains (fun s F f => bayes_optimize maximize s F f verbose okw) tried s Fs.
Proof. exact bayes_trains. Qed.
Print Assumptions C88_bayes_trains.

(** The hypotheses hold for two responses: an RBF model with length scale in [1/2, 2] and a fixed RBF model, both with noise
    1/100; points 0, 1, 3, 7 of one feature. *)
Definition ex88_store : store := mkStore 4 (fun l => match l with
  | O => mkParam (Fin (1/100)) (Fin 0, Fin 0) true
  | 1%nat => mkParam (Fin 1) (Fin (1/2), Fin 2) false
  | 2%nat => mkParam (Fin (1/100)) (Fin 0, Fin 0) true
  | _ => mkParam (Fin 3) (Fin 0, Fin 0) true end).
Definition ex88_a : model := mkModel (KRbf (LSScalar (mkNamed "length_scale" 1))) (NHomo (mkNamed "noise" 0)).
Definition ex88_b : model := mkModel (KRbf (LSScalar (mkNamed "length_scale" 3))) (NHomo (mkNamed "noise" 2)).
Definition ex88_full (m : model) : full :=
  mkFull m (model_make ex88_store m) F2 (mkNd [] (fun _ => 0)) (AnalyticScale 1) 1 1.
Definition ex88 : list full := [ex88_full ex88_a; ex88_full ex88_b].
Definition ex88_train : nd R := mkNd [4; 1]%nat (fun idx => match idx with [O; _] => 0 | [1%nat; _] => 1 | [2%nat; _] => 3 | _ => 7 end).
Definition ex88_test : nd R := mkNd [2; 1]%nat (fun idx => match idx with [O; _] => 1 | _ => 2 / 5 end).
Definition ex88_opt : store -> full -> (dict R -> result R) -> result (store * full) := scipy_optimize (fun _ x0 _ => Ok x0).

Lemma ex88_documented : forall F b, In F ex88 -> documented ex88_store F ex88_train b 3.
Proof.
  assert (Z : forall F, F = ex88_full ex88_a \/ F = ex88_full ex88_b -> forall b, documented ex88_store F ex88_train b 3).
  { intros F HF b. split.
    { destruct HF as [-> | ->]; (split; [split; [constructor; reflexivity|split; [exact I|reflexivity]]|]; split; [discriminate|]; split;
        [intros n Hn; cbn in Hn; repeat destruct Hn as [<-|Hn]; cbn; try lia; destruct Hn|
         cbn; repeat (constructor; [cbn; intuition discriminate|]); constructor]). }
    split.
    { intros n Hn Hf. destruct HF as [-> | ->]; cbn in Hn; repeat destruct Hn as [<-|Hn]; cbn in *; try discriminate; try destruct Hn.
      split; [discriminate|]. split; [discriminate|]. intros C; inversion C; lra. }
    split.
    { intros n Hn Hf. destruct HF as [-> | ->]; cbn in Hn; repeat destruct Hn as [<-|Hn]; cbn in *; try discriminate; try destruct Hn.
      exists (1/2). split; [reflexivity|lra]. }
    split; [destruct HF as [-> | ->]; exact I|].
    split.
    { intros names x0 bounds E. right. destruct HF as [-> | ->]; cbn in E; injection E as <- <- <-; cbn; intuition discriminate. }
    split.
    { destruct HF as [-> | ->]; (split; [reflexivity|]; split;
        [eexists; split; [reflexivity|]; split; [reflexivity|]; split; [apply Nat.lt_0_1|]; split; [intros f _; cbn; lra|reflexivity]|
         split; [exact I|cbn; lia]]). }
    intros x i. destruct HF as [-> | ->]; cbn; lra. }
  intros F b [<-|[<-|[]]]; apply Z; auto.
Qed.

Example C88_sat : exists knn dist w, sklearn_ok knn dist /\ lower "exact" = "exact" /\ euclidean_kw [] /\
  nn_init false (rows_of ex88_train) 3 "exact" [] = Ok w /\ (3 + 1 <= 4)%nat /\ (1 < 3)%nat /\
  shape ex88_test = [2; 1]%nat /\ shape ex88_train = [4; 1]%nat /\ dataset ex88_train 4 /\ shape ex87_labels = [4%nat; List.length ex88] /\
  distinct_rows ex88_train 4 (fun i => i) /\ valid_choice (seq 0 4) 2 [2; 0]%nat /\
  (forall F, In F ex88 -> documented ex88_store F ex88_train (Nat.min 2 4) 3 /\ f_var_scale F = f_scale F /\
     exists v, full_noise ex88_store F = HomoscedasticNoise v) /\
  (forall F F', In F ex88 -> In F' ex88 -> same_tensors F F') /\
  ~ (forall F, In F ex88 -> model_fixed ex88_store (f_attr F) = Ok true) /\ mean_loss PseudoHuber /\
  trains ex88_opt (fun _ y => y = [1]) ex88_store ex88 /\
  one_hot ex87_labels 4 2 (-1) 1 ex87_cl /\ contested ex88_train 4 3 ex87_cl 0 /\ (class_number 4 ex87_cl <= 2)%nat /\ List.length ex88 = 2%nat.
Proof.
  assert (DR : distinct_rows ex88_train 4 (fun i => i)).
  { intros i j Hi Hj Hij. exists O. split; [apply Nat.lt_0_1|]. unfold feature, ex88_train. cbn [shape at_].
    destruct i as [|[|[|[|i]]]]; [| | | |lia]; (destruct j as [|[|[|[|j]]]]; [| | | |lia]); try lia; lra. }
  exists ref_knn, (fun _ => ref_dist). eexists. split; [apply ref_ok|]. split; [reflexivity|]. split; [unfold euclidean_kw; cbn; auto|].
  split; [reflexivity|]. split; [lia|]. split; [lia|]. split; [reflexivity|]. split; [reflexivity|]. split; [right; eexists; reflexivity|]. split; [reflexivity|].
  split; [exact DR|]. split. { split; [reflexivity|]. split; [repeat constructor; cbn; intuition lia|]. intros a [<-|[<-|[]]]; cbn; auto. }
  split. { intros F HF. split; [apply ex88_documented; exact HF|]. destruct HF as [<-|[<-|[]]]; (split; [reflexivity|eexists; reflexivity]). }
  split. { intros F F' [<-|[<-|[]]] [<-|[<-|[]]]; reflexivity. }
  split. { intros C. specialize (C _ (or_introl eq_refl)). discriminate. }
  split; [right; reflexivity|]. split.
  { apply C88_scipy_trains; [intros F HF; apply (ex88_documented F 2%nat HF)|].
    intros F names x0 bounds [<-|[<-|[]]] E f T; cbn in E; injection E as <- <- <-.
    - exists [1]. split; [constructor; [split; intros C; inversion C; lra|constructor]|]. split; [reflexivity|].
      intros y vx vy -> _ -> E. injection E as ->. lra.
    - exists []. split; [constructor|]. split; [reflexivity|]. intros y vx vy -> B. inversion B. }
  split.
  { split; [lra|]. split; [reflexivity|]. intros i Hi. split; [|reflexivity]. destruct i as [|[|[|[|i]]]]; cbn; lia. }
  split; [|split; [cbn; lia|reflexivity]].
  split; [lia|]. intros q (Q1 & Q2 & _).
  destruct (Nat.eq_dec (ex87_cl (q 0%nat)) (ex87_cl (q 1%nat))) as [E1|]; [|exists 0%nat, 1%nat; auto with arith].
  destruct (Nat.eq_dec (ex87_cl (q 0%nat)) (ex87_cl (q 2%nat))) as [E2|]; [|exists 0%nat, 2%nat; auto with arith]. exfalso.
  pose proof (Q1 0%nat ltac:(lia)) as A0. pose proof (Q1 1%nat ltac:(lia)) as A1. pose proof (Q1 2%nat ltac:(lia)) as A2.
  pose proof (Q2 0%nat 1%nat ltac:(lia) ltac:(lia)) as B0. pose proof (Q2 0%nat 2%nat ltac:(lia) ltac:(lia)) as B1. pose proof (Q2 1%nat 2%nat ltac:(lia) ltac:(lia)) as B2.
  destruct (q 0%nat) as [|[|[|[|?]]]]; try lia; destruct (q 1%nat) as [|[|[|[|?]]]]; try lia; destruct (q 2%nat) as [|[|[|[|?]]]]; try lia;
    cbn in E1, E2; try discriminate; lia.
Qed.

(** A batch column with both labels gets a value (so the objective is really constant, not an error). *)
Example C88_loss_sat : let t := mkNd [2; 1]%nat (fun idx => match idx with [O; _] => 1 | _ => -1 end) in
  forall p, shape p = [2; 1]%nat -> cross_entropy_fn (1/100) p t = Ok (rsum 2 (fun i => if Rltb 0 (at_ t [i; O]) then - ln (1 - 1/100) else - ln (1/100))).
Proof.
  intros t p Sp. destruct (LossProofs.cross_entropy_column (1/100) p t 2 Sp eq_refl ltac:(lra)) as [_ H].
  apply (H 0%nat 1%nat); cbn; try lia; lra.
Qed.
