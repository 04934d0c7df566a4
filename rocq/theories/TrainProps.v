(** Training from data (C83) and the regression drivers with real training (C84). *)
From Coq Require Import Lia Lra.
From Verif Require Import Base NdModel RSum LinAlgModel LinAlgSpec GPModel NoiseModel MuyGPSModel GPSpec ScaleSpec
  TensorModel TensorSpec HyperModel HyperSpec NamedModel NamedSpec KernelModel KernelSpec KernelCases FlowSpec PointwiseSpec LibSpec
  LossModel LossSpec ChassisModel ChassisSpec MultiModel DriverModel ClassifyModel NeighborsModel NeighborsSpec NeighborsProofs BatchProofs
  WorkModel WorkSpec WorkProps TrainModel TrainSpec TrainProofs TrainProofs2 TrainProofs3.
Local Open Scope R_scope.
Local Open Scope string_scope.

(** * C83 *)
(** The objective that optimize_from_indices builds from (train, targets) and a batch is, at every point of the box of bounds, minus the
    documented loss of the leave-one-out kriging predictions (under the noise, covariance and scale) of the model that the optimizer would
    return for that point; it never fails and all leave-one-out variances are in (0, 1]. *)
Theorem C83_objective_from_data : forall ls, exact_solver ls -> forall sld eps gamma kv s F l kw draws train targets ix nn N b n c q names x0 bounds t,
  model_ok s F -> bounds_ok s F -> positive_bounds s F -> leading_free s (k_ls (m_kernel (f_attr F))) ->
  get_opt_params s (f_attr F) = Ok (names, x0, bounds) -> (f_kind F = FixedScale \/ ~ In "noise" names) ->
  trainable s F train b n -> loo_well_posed (full_noise s F) train b n c q ->
  batch_ok train targets ix nn N b n c q -> loss_kw_ok kw -> scores_vectors l ->
  full_train_tensors F ix nn train targets = Ok t ->
  forall x, in_box x bounds -> exists s' F' v,
    new_muygps s F names bounds (combine names (map Fin x)) = Ok (s', F') /\
    optimized_model s F (combine names (map Fin x)) s' F' /\
    obj_fn ls sld eps gamma kv s F l kw None draws (tr_pair t) (tr_cross t) (tr_nn_targets t) (tr_targets t) (combine names x) = Ok v /\
    loo_value gamma kv s' F' l kw train targets b n c q v /\
    trainable s' F' train b n /\ loo_well_posed (full_noise s' F') train b n c q.
Proof. intros ls EX sld eps gamma kv s F l kw draws train targets ix nn N b n c q names x0 bounds t. apply candidate_value; auto. Qed.
Print Assumptions C83_objective_from_data.

(** The tensors exist for every such batch. *)
Theorem C83_tensors_total : forall (gamma : R -> R) (kv : R -> R -> R) s F train targets ix nn N b n c q,
  trainable s F train b n -> batch_ok train targets ix nn N b n c q -> exists t, full_train_tensors F ix nn train targets = Ok t.
Proof. intros gamma kv s F train targets ix nn N b n c q TR BK. apply (tensors_total gamma kv s F train targets ix nn N b n c q TR BK). Qed.
Print Assumptions C83_tensors_total.

(** If scipy's minimizer returns a point of the box with the smallest value among the points it tried, optimize_from_indices returns the
    model of that point, and its leave-one-out value is at least that of the model of every other point tried. *)
Theorem C83_scipy_best : forall ls, exact_solver ls -> forall sld eps gamma kv s F l kw draws train targets ix nn N b n c q names x0 bounds,
  model_ok s F -> bounds_ok s F -> positive_bounds s F -> leading_free s (k_ls (m_kernel (f_attr F))) ->
  get_opt_params s (f_attr F) = Ok (names, x0, bounds) -> (f_kind F = FixedScale \/ ~ In "noise" names) ->
  trainable s F train b n -> loo_well_posed (full_noise s F) train b n c q ->
  batch_ok train targets ix nn N b n c q -> loss_kw_ok kw -> scores_vectors l ->
  forall t x (tried : list R -> Prop) minimize,
  full_train_tensors F ix nn train targets = Ok t ->
  let obj := obj_fn ls sld eps gamma kv s F l kw None draws (tr_pair t) (tr_cross t) (tr_nn_targets t) (tr_targets t) in
  minimize (obj_fn_adapter obj names) x0 bounds = Ok (map Fin x) -> in_box x bounds ->
  (forall y vx vy, tried y -> in_box y bounds ->
     obj_fn_adapter obj names x = Ok vx -> obj_fn_adapter obj names y = Ok vy -> vx <= vy) ->
  exists s' F' v, optimize_from_indices ls sld eps gamma kv (scipy_optimize minimize) s F l kw None draws ix nn train targets = Ok (s', F') /\
    optimized_model s F (combine names (map Fin x)) s' F' /\
    loo_value gamma kv s' F' l kw train targets b n c q v /\
    forall y, tried y -> in_box y bounds -> exists s'' F'' w,
      new_muygps s F names bounds (combine names (map Fin y)) = Ok (s'', F'') /\
      loo_value gamma kv s'' F'' l kw train targets b n c q w /\ w <= v.
Proof.
  intros ls EX sld eps gamma kv s F l kw draws train targets ix nn N b n c q names x0 bounds MO BO PB LF EO SK TR WP BK KW LS t x tried minimize.
  apply scipy_best with (x0 := x0) (N := N); auto.
Qed.
Print Assumptions C83_scipy_best.

(** The same for bayes_opt's maximizer. *)
Theorem C83_bayes_best : forall ls, exact_solver ls -> forall sld eps gamma kv s F l kw draws train targets ix nn N b n c q names x0 bounds,
  model_ok s F -> bounds_ok s F -> positive_bounds s F -> leading_free s (k_ls (m_kernel (f_attr F))) ->
  get_opt_params s (f_attr F) = Ok (names, x0, bounds) -> (f_kind F = FixedScale \/ ~ In "noise" names) ->
  trainable s F train b n -> loo_well_posed (full_noise s F) train b n c q ->
  batch_ok train targets ix nn N b n c q -> loss_kw_ok kw -> scores_vectors l ->
  forall t x (tried : list R -> Prop) maximize verbose okw plan,
  full_train_tensors F ix nn train targets = Ok t ->
  let obj := obj_fn ls sld eps gamma kv s F l kw None draws (tr_pair t) (tr_cross t) (tr_nn_targets t) (tr_targets t) in
  bayes_plan s F verbose okw = Ok plan -> maximize obj plan = Ok (combine names (map Fin x)) -> in_box x bounds ->
  (forall y vx vy, tried y -> in_box y bounds -> obj (combine names x) = Ok vx -> obj (combine names y) = Ok vy -> vy <= vx) ->
  exists s' F' v, optimize_from_indices ls sld eps gamma kv (fun s F f => bayes_optimize maximize s F f verbose okw)
      s F l kw None draws ix nn train targets = Ok (s', F') /\
    optimized_model s F (combine names (map Fin x)) s' F' /\
    loo_value gamma kv s' F' l kw train targets b n c q v /\
    forall y, tried y -> in_box y bounds -> exists s'' F'' w,
      new_muygps s F names bounds (combine names (map Fin y)) = Ok (s'', F'') /\
      loo_value gamma kv s'' F'' l kw train targets b n c q w /\ w <= v.
Proof.
  intros ls EX sld eps gamma kv s F l kw draws train targets ix nn N b n c q names x0 bounds MO BO PB LF EO SK TR WP BK KW LS t x tried maximize
    verbose okw plan.
  apply bayes_best with (x0 := x0) (N := N); auto.
Qed.
Print Assumptions C83_bayes_best.

(** * C84 *)
(** Both optimizers are [returns_best] as soon as the external minimizer or maximizer returns a point of the box at least as good as every
    point it tried. *)
Theorem C84_scipy_returns_best : forall minimize s F names x0 bounds (tried : (dict R -> result R) -> list R -> Prop),
  model_ok s F -> get_opt_params s (f_attr F) = Ok (names, x0, bounds) ->
  (forall f, (forall y, in_box y bounds -> exists v, f (combine names y) = Ok v) ->
     exists x, in_box x bounds /\ minimize (obj_fn_adapter f names) x0 bounds = Ok (map Fin x) /\
       forall y vx vy, tried f y -> in_box y bounds ->
         obj_fn_adapter f names x = Ok vx -> obj_fn_adapter f names y = Ok vy -> vx <= vy) ->
  returns_best (scipy_optimize minimize) s F names bounds tried.
Proof. exact scipy_returns_best. Qed.
Print Assumptions C84_scipy_returns_best.

Theorem C84_bayes_returns_best : forall maximize verbose okw plan s F names x0 bounds (tried : (dict R -> result R) -> list R -> Prop),
  get_opt_params s (f_attr F) = Ok (names, x0, bounds) -> bayes_plan s F verbose okw = Ok plan ->
  (forall f, (forall y, in_box y bounds -> exists v, f (combine names y) = Ok v) ->
     exists x, in_box x bounds /\ maximize f plan = Ok (combine names (map Fin x)) /\
       forall y vx vy, tried f y -> in_box y bounds -> f (combine names x) = Ok vx -> f (combine names y) = Ok vy -> vy <= vx) ->
  returns_best (fun s F f => bayes_optimize maximize s F f verbose okw) s F names bounds tried.
Proof. exact bayes_returns_best. Qed.
Print Assumptions C84_bayes_returns_best.

(** make_regressor with real training: a batch of distinct rows, each with its nearest other rows; the returned model is the best model
    the optimizer tried on the leave-one-out objective of that batch, with the documented scale (its own fixed one, or the
    maximum-likelihood scale of the batch neighbourhoods).  It fails only if that scale is not positive. *)
Theorem C84_make_regressor : forall ls, exact_solver ls -> forall sld eps gamma kv knn hnsw dist, sklearn_ok knn dist ->
  forall opt en method kw w train targets N n bc drawn s F l draws draws' names x0 bounds tried,
  lower method = "exact" -> euclidean_kw kw -> nn_init en (rows_of train) n method kw = Ok w -> (n + 1 <= N)%nat ->
  dataset train N -> shape targets = [N] -> distinct_rows train N (fun i => i) -> (0 < bc)%nat -> (0 < n)%nat ->
  valid_choice (seq 0 N) bc drawn \/ (N <= bc)%nat ->
  model_ok s F -> bounds_ok s F -> positive_bounds s F -> leading_free s (k_ls (m_kernel (f_attr F))) ->
  get_opt_params s (f_attr F) = Ok (names, x0, bounds) -> (f_kind F = FixedScale \/ ~ In "noise" names) ->
  trainable s F train (Nat.min bc N) n ->
  (forall x i, (x < Nat.min bc N)%nat -> (i < n)%nat -> 0 <= noise_at (full_noise s F) None x i) ->
  scores_vectors l -> model_fixed s (f_attr F) = Ok false -> returns_best opt s F names bounds tried ->
  exists idx q x s' F' K v sc,
    (* the batch *)
    List.length idx = Nat.min bc N /\ NoDup idx /\
    (forall i, (i < Nat.min bc N)%nat -> (nth i idx O < N)%nat /\ nearest_others train N (nth i idx O) n (q i)) /\
    (* the model of the best point tried *)
    in_box x bounds /\ new_muygps s F names bounds (combine names (map Fin x)) = Ok (s', F') /\
    optimized_model s F (combine names (map Fin x)) s' F' /\
    loo_value gamma kv s' F' l [] train targets (Nat.min bc N) n (fun i => nth i idx O) q v /\
    (exists f,
      (forall y, in_box y bounds -> exists s'' F'' vy, new_muygps s F names bounds (combine names (map Fin y)) = Ok (s'', F'') /\
         loo_value gamma kv s'' F'' l [] train targets (Nat.min bc N) n (fun i => nth i idx O) q vy /\ f (combine names y) = Ok vy) /\
      (forall y, tried f y -> in_box y bounds -> exists vy, f (combine names y) = Ok vy /\ vy <= v)) /\
    (* its scale *)
    full_lib s' F' = Some K /\ trainable s' F' train (Nat.min bc N) n /\
    (forall x i, (x < Nat.min bc N)%nat -> (i < n)%nat -> 0 <= noise_at (full_noise s' F') None x i) /\
    scale_used F' (lk_cov gamma kv K (feature_count train) (reals s') []) (full_noise s' F') train targets (Nat.min bc N) n q sc /\
    train_regressor ls sld eps gamma kv opt knn hnsw en train targets n bc method kw drawn s F l draws draws' =
      (if Rleb sc 0 then Err ValueError else Ok (s', with_scale F' sc, w)).
Proof.
  intros ls EX sld eps gamma kv knn hnsw dist Hsk opt en method kw w train targets N n bc drawn s F l draws draws' names x0 bounds tried.
  intros. apply train_regressor_ok with (dist := dist) (x0 := x0); auto.
Qed.
Print Assumptions C84_make_regressor.

(** A model with nothing to optimize is returned as it is, with the lookup. *)
Theorem C84_fixed_model : forall ls sld eps gamma kv knn hnsw opt en method kw w train targets N n bc drawn s F l draws draws',
  nn_init en (rows_of train) n method kw = Ok w -> dataset train N -> model_fixed s (f_attr F) = Ok true ->
  train_regressor ls sld eps gamma kv opt knn hnsw en train targets n bc method kw drawn s F l draws draws' = Ok (s, F, w).
Proof. intros. eapply train_regressor_fixed; eauto. Qed.
Print Assumptions C84_fixed_model.

(** do_regress with a homoscedastic noise model: whatever training returned, its predictions are the kriging predictions, from the nearest
    training rows of each test row, under the covariance, noise and scale of the model that training returned. *)
Theorem C84_do_regress : forall ls, exact_solver ls -> forall sld eps gamma kv knn hnsw dist, sklearn_ok knn dist ->
  forall opt en method kw w test train targets N M n bc drawn s F l draws draws' names x0 bounds tried v0,
  lower method = "exact" -> euclidean_kw kw -> nn_init en (rows_of train) n method kw = Ok w -> (n + 1 <= N /\ 0 < M)%nat ->
  dataset test M -> ndim test = ndim train -> feature_count test = feature_count train ->
  dataset train N -> shape targets = [N] -> distinct_rows train N (fun i => i) -> (0 < bc)%nat -> (0 < n)%nat ->
  valid_choice (seq 0 N) bc drawn \/ (N <= bc)%nat ->
  model_ok s F -> bounds_ok s F -> positive_bounds s F -> leading_free s (k_ls (m_kernel (f_attr F))) ->
  get_opt_params s (f_attr F) = Ok (names, x0, bounds) -> (f_kind F = FixedScale \/ ~ In "noise" names) ->
  trainable s F train (Nat.min bc N) n -> full_noise s F = HomoscedasticNoise v0 -> 0 <= v0 ->
  scores_vectors l -> model_fixed s (f_attr F) = Ok false -> returns_best opt s F names bounds tried ->
  (exists idx q x s' F' K v sc mean var,
    List.length idx = Nat.min bc N /\ NoDup idx /\
    (forall i, (i < Nat.min bc N)%nat -> (nth i idx O < N)%nat /\ nearest_others train N (nth i idx O) n (q i)) /\
    in_box x bounds /\ optimized_model s F (combine names (map Fin x)) s' F' /\
    loo_value gamma kv s' F' l [] train targets (Nat.min bc N) n (fun i => nth i idx O) q v /\
    full_lib s' F' = Some K /\
    scale_used F' (lk_cov gamma kv K (feature_count train) (reals s') []) (full_noise s' F') train targets (Nat.min bc N) n q sc /\ 0 < sc /\
    train_and_regress ls sld eps gamma kv opt knn hnsw en test train targets n bc method kw drawn s F l draws draws' =
      Ok (s', with_scale F' sc, w, (mean, var)) /\
    kriging_predictions (lk_cov gamma kv K (feature_count train) (reals s') []) (full_noise s' F') sc test train targets N M n mean var) \/
  train_and_regress ls sld eps gamma kv opt knn hnsw en test train targets n bc method kw drawn s F l draws draws' = Err ValueError.
Proof.
  intros ls EX sld eps gamma kv knn hnsw dist Hsk opt en method kw w test train targets N M n bc drawn s F l draws draws' names x0 bounds tried v0.
  intros. eapply train_and_regress_ok; eauto.
Qed.
Print Assumptions C84_do_regress.

(** A fixed model predicts with its own parameters and scale. *)
Theorem C84_do_regress_fixed : forall ls, exact_solver ls -> forall sld eps gamma kv knn hnsw dist, sklearn_ok knn dist ->
  forall opt en method kw w test train targets N M n bc drawn s F K l draws draws' v0,
  lower method = "exact" -> euclidean_kw kw -> nn_init en (rows_of train) n method kw = Ok w -> (0 < n <= N /\ 0 < M)%nat ->
  dataset test M -> ndim test = ndim train -> feature_count test = feature_count train ->
  dataset train N -> shape targets = [N] -> distinct_rows train N (fun i => i) ->
  f_bound F = model_make s (f_attr F) -> full_lib s F = Some K -> lk_ok K (feature_count train) (reals s) [] ->
  full_noise s F = HomoscedasticNoise v0 -> 0 <= v0 -> 0 <= f_var_scale F -> model_fixed s (f_attr F) = Ok true ->
  exists mean var,
    train_and_regress ls sld eps gamma kv opt knn hnsw en test train targets n bc method kw drawn s F l draws draws' =
      Ok (s, F, w, (mean, var)) /\
    kriging_predictions (lk_cov gamma kv K (feature_count train) (reals s) []) (full_noise s F) (f_var_scale F)
      test train targets N M n mean var.
Proof.
  intros ls EX sld eps gamma kv knn hnsw dist Hsk opt en method kw w test train targets N M n bc drawn s F K l draws draws' v0.
  intros. eapply train_and_regress_fixed; eauto.
Qed.
Print Assumptions C84_do_regress_fixed.

(** The hypotheses of C83, C84 hold for training points 0, 1, 3 with two neighbours: an RBF model with length scale in [1/2, 2], fixed noise
    1/100, analytic scale; batch of two rows. *)
Definition ex84_store : store := mkStore 2 (fun l => match l with
  | O => mkParam (Fin (1/100)) (Fin 0, Fin 0) true
  | _ => mkParam (Fin 1) (Fin (1/2), Fin 2) false end).
Definition ex84_model : model := mkModel (KRbf (LSScalar (mkNamed "length_scale" 1))) (NHomo (mkNamed "noise" 0)).
Definition ex84 : full :=
  mkFull ex84_model (model_make ex84_store ex84_model) F2 (mkNd [] (fun _ => 0)) (AnalyticScale 1) 1 1.
Definition ex84_opt (s : store) (F : full) (f : dict R -> result R) : result (store * full) :=
  new_muygps s F ["length_scale"] [(Fin (1/2), Fin 2)] (combine ["length_scale"] (map Fin [1])).

Example C84_sat : exists knn dist w, sklearn_ok knn dist /\ lower "exact" = "exact" /\ euclidean_kw [] /\
  nn_init false (rows_of ex80_train) 2 "exact" [] = Ok w /\ (2 + 1 <= 3)%nat /\
  dataset ex80_test 2 /\ ndim ex80_test = ndim ex80_train /\ feature_count ex80_test = feature_count ex80_train /\
  dataset ex80_train 3 /\ shape ex80_targets = [3%nat] /\ distinct_rows ex80_train 3 (fun i => i) /\
  valid_choice (seq 0 3) 2 [2; 0]%nat /\
  model_ok ex84_store ex84 /\ bounds_ok ex84_store ex84 /\ positive_bounds ex84_store ex84 /\
  leading_free ex84_store (k_ls (m_kernel (f_attr ex84))) /\
  get_opt_params ex84_store (f_attr ex84) = Ok (["length_scale"], [Fin 1], [(Fin (1/2), Fin 2)]) /\
  ~ In "noise" ["length_scale"] /\
  trainable ex84_store ex84 ex80_train 2 2 /\ full_noise ex84_store ex84 = HomoscedasticNoise (1/100) /\ 0 <= 1/100 /\
  model_fixed ex84_store (f_attr ex84) = Ok false /\
  returns_best ex84_opt ex84_store ex84 ["length_scale"] [(Fin (1/2), Fin 2)] (fun _ y => y = [1]) /\
  (exists ix nn, batch_ok ex80_train ex80_targets ix nn 3 2 2 (fun x => match x with O => 2%nat | _ => O end)
      (fun x j => match x, j with O, O => 1%nat | O, _ => O | _, O => 1%nat | _, _ => 2%nat end)) /\
  loo_well_posed (full_noise ex84_store ex84) ex80_train 2 2 (fun x => match x with O => 2%nat | _ => O end)
      (fun x j => match x, j with O, O => 1%nat | O, _ => O | _, O => 1%nat | _, _ => 2%nat end).
Proof.
  assert (DR : distinct_rows ex80_train 3 (fun i => i)).
  { intros i j Hi Hj Hij. exists O. split; [apply Nat.lt_0_1|]. unfold feature, ex80_train. cbn [shape at_].
    destruct i as [|[|[|i]]]; [| | |lia]; (destruct j as [|[|[|j]]]; [| | |lia]); try lia; lra. }
  exists ref_knn, (fun _ => ref_dist). eexists. split; [apply ref_ok|]. split; [reflexivity|]. split; [unfold euclidean_kw; cbn; auto|].
  split; [reflexivity|]. split; [lia|]. split; [left; reflexivity|]. split; [reflexivity|]. split; [reflexivity|].
  split; [left; reflexivity|]. split; [reflexivity|]. split; [exact DR|].
  split. { split; [reflexivity|]. split; [repeat constructor; cbn; intuition lia|]. intros a [<-|[<-|[]]]; cbn; auto. }
  split.
  { split; [split; [constructor; reflexivity|split; [exact I|reflexivity]]|]. split; [discriminate|]. split.
    - intros n Hn. cbn in Hn. repeat destruct Hn as [<-|Hn]; cbn; try lia; destruct Hn.
    - cbn. repeat (constructor; [cbn; intuition discriminate|]). constructor. }
  split.
  { intros n Hn Hf. cbn in Hn. repeat destruct Hn as [<-|Hn]; cbn in *; try discriminate; try destruct Hn.
    split; [discriminate|]. split; [discriminate|]. intros C; inversion C; lra. }
  split.
  { intros n Hn Hf. cbn in Hn. repeat destruct Hn as [<-|Hn]; cbn in *; try discriminate; try destruct Hn. exists (1/2). split; [reflexivity|lra]. }
  split; [exact I|]. split; [reflexivity|]. split; [intros [H|[]]; discriminate|].
  split.
  { split; [reflexivity|]. split.
    - eexists. split; [reflexivity|]. split; [reflexivity|]. split; [apply Nat.lt_0_1|]. split; [intros f _; cbn; lra|reflexivity].
    - split; [exact I|]. cbn. lia. }
  split; [reflexivity|]. split; [lra|]. split; [reflexivity|].
  split.
  { intros f _. exists [1]. split; [constructor; [split; intros C; inversion C; lra|constructor]|]. split; [reflexivity|].
    intros y vx vy -> _ -> E. injection E as ->. lra. }
  split.
  { exists (index_vector [2; 0]%nat), (index_array 2 [[1; 0]; [1; 2]]%nat).
    split; [left; reflexivity|]. split; [reflexivity|]. split; [lia|]. split; [lia|]. split; [reflexivity|]. split.
    - intros x Hx. destruct x as [|[|x]]; [| |lia]; (split; [reflexivity|lia]).
    - split; [reflexivity|]. intros x j Hx Hj. destruct x as [|[|x]]; [| |lia]; (destruct j as [|[|j]]; [| |lia]); (split; [reflexivity|lia]). }
  intros x Hx. left. intros i Hi. cbn. lra.
Qed.

(** A fixed model (hypotheses of the _fixed theorems). *)
Definition ex84f_store : store := mkStore 2 (fun l => match l with
  | O => mkParam (Fin (1/100)) (Fin 0, Fin 0) true
  | _ => mkParam (Fin 1) (Fin 0, Fin 0) true end).
Definition ex84f : full :=
  mkFull ex84_model (model_make ex84f_store ex84_model) F2 (mkNd [] (fun _ => 0)) FixedScale 3 3.
Example C84_fixed_sat : model_fixed ex84f_store (f_attr ex84f) = Ok true /\
  f_bound ex84f = model_make ex84f_store (f_attr ex84f) /\
  full_lib ex84f_store ex84f = Some (LRbf (Iso F2 (mkNamed "length_scale" 1))) /\
  lk_ok (LRbf (Iso F2 (mkNamed "length_scale" 1))) (feature_count ex80_train) (reals ex84f_store) [] /\
  full_noise ex84f_store ex84f = HomoscedasticNoise (1/100) /\ 0 <= f_var_scale ex84f.
Proof.
  split; [reflexivity|]. split; [reflexivity|]. split; [reflexivity|]. split.
  { split; [reflexivity|]. split; [apply Nat.lt_0_1|]. split; [intros f _; cbn; lra|reflexivity]. }
  split; [reflexivity|]. cbn. lra.
Qed.
