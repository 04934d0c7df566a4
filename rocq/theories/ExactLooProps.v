(** Training on all rows with all other rows as neighbours is exact leave-one-out cross-validation (C96). *)
From Coq Require Import Lia Lra.
From Verif Require Import Base NdModel RSum LinAlgModel LinAlgSpec Gauss GPModel NoiseModel MuyGPSModel GPSpec ScaleSpec
  TensorModel TensorSpec HyperModel HyperSpec NamedModel NamedSpec KernelModel KernelSpec KernelCases FlowSpec PointwiseSpec LibSpec
  LossModel LossSpec ChassisModel ChassisSpec MultiModel DriverModel ClassifyModel NeighborsModel NeighborsSpec NeighborsProofs BatchProofs
  WorkModel WorkSpec WorkLemmas WorkProps TrainModel TrainSpec TrainProofs TrainProofs2 TrainProofs3 TrainProps LocalSpec ExactLooSpec ExactLooProofs.
Local Open Scope R_scope.
Local Open Scope string_scope.

(** * C96 *)
(** If the batch is all the N training rows and the neighbours of each row are the N - 1 others, the training objective is, at every point of
    the box of bounds, minus the loss of the closed-form leave-one-out predictions of the ordinary Gaussian process on all the data (means
    y_a - alpha_a / kappa_a, variances 1 / kappa_a - noise, with alpha = A^-1 y, kappa = diag A^-1) that has the covariance, noise and scale of
    the model the optimizer would return for that point. *)
Theorem C96_objective : forall ls, exact_solver ls -> forall sld eps gamma kv s F l kw draws train targets ix nn N n c q names x0 bounds t v0,
  model_ok s F -> bounds_ok s F -> positive_bounds s F -> leading_free s (k_ls (m_kernel (f_attr F))) ->
  get_opt_params s (f_attr F) = Ok (names, x0, bounds) -> (f_kind F = FixedScale \/ ~ In "noise" names) ->
  trainable s F train N n -> full_noise s F = HomoscedasticNoise v0 -> 0 <= v0 -> distinct_rows train N (fun i => i) ->
  batch_ok train targets ix nn N N n c q -> loss_kw_ok kw -> scores_vectors l ->
  (n + 1 = N)%nat -> perm_on N c -> (forall x, (x < N)%nat -> others_of N n (c x) (q x)) ->
  full_train_tensors F ix nn train targets = Ok t ->
  forall x, in_box x bounds -> exists s' F' v,
    new_muygps s F names bounds (combine names (map Fin x)) = Ok (s', F') /\
    optimized_model s F (combine names (map Fin x)) s' F' /\
    obj_fn ls sld eps gamma kv s F l kw None draws (tr_pair t) (tr_cross t) (tr_nn_targets t) (tr_targets t) (combine names x) = Ok v /\
    exact_loo_value gamma kv s' F' l kw train targets N v.
Proof.
  intros ls EX sld eps gamma kv s F l kw draws train targets ix nn N n c q names x0 bounds t v0.
  intros. apply exact_objective with (x0 := x0) (ix := ix) (nn := nn) (n := n) (c := c) (q := q) (v0 := v0); auto.
Qed.
Print Assumptions C96_objective.

(** The value is determined by the model and the data. *)
Theorem C96_value_unique : forall gamma kv s F l kw train targets N n v v', trainable s F train N n ->
  full_sound (full_noise s F) train N ->
  exact_loo_value gamma kv s F l kw train targets N v -> exact_loo_value gamma kv s F l kw train targets N v' -> v = v'.
Proof. intros gamma kv s F l kw train targets N n v v'. apply exact_value_unique. Qed.
Print Assumptions C96_value_unique.

(** make_regressor with nn_count one less than the number of rows and a batch as large as the training data: the returned model has the best
    exact leave-one-out value of all the points the optimizer tried, and the exact scale; no randomness of the batch or order of the
    neighbours shows. *)
Theorem C96_make_regressor : forall ls, exact_solver ls -> forall sld eps gamma kv knn hnsw dist, sklearn_ok knn dist ->
  forall opt en method kw w train targets N n bc drawn s F l draws draws' names x0 bounds tried v0,
  lower method = "exact" -> euclidean_kw kw -> nn_init en (rows_of train) n method kw = Ok w -> (n + 1 = N)%nat -> (N <= bc)%nat ->
  dataset train N -> shape targets = [N] -> distinct_rows train N (fun i => i) -> (0 < n)%nat ->
  model_ok s F -> bounds_ok s F -> positive_bounds s F -> leading_free s (k_ls (m_kernel (f_attr F))) ->
  get_opt_params s (f_attr F) = Ok (names, x0, bounds) -> (f_kind F = FixedScale \/ ~ In "noise" names) ->
  trainable s F train N n -> full_noise s F = HomoscedasticNoise v0 -> 0 <= v0 ->
  scores_vectors l -> model_fixed s (f_attr F) = Ok false -> returns_best opt s F names bounds tried ->
  exists x s' F' v sc f,
    in_box x bounds /\ new_muygps s F names bounds (combine names (map Fin x)) = Ok (s', F') /\
    optimized_model s F (combine names (map Fin x)) s' F' /\
    exact_loo_value gamma kv s' F' l [] train targets N v /\
    (forall y, in_box y bounds -> exists s'' F'' vy, new_muygps s F names bounds (combine names (map Fin y)) = Ok (s'', F'') /\
       exact_loo_value gamma kv s'' F'' l [] train targets N vy /\ f (combine names y) = Ok vy) /\
    (forall y, tried f y -> in_box y bounds -> exists vy, f (combine names y) = Ok vy /\ vy <= v) /\
    exact_scale_value gamma kv s' F' train targets N sc /\
    train_regressor ls sld eps gamma kv opt knn hnsw en train targets n bc method kw drawn s F l draws draws' =
      (if Rleb sc 0 then Err ValueError else Ok (s', with_scale F' sc, w)).
Proof.
  intros ls EX sld eps gamma kv knn hnsw dist Hsk opt en method kw w train targets N n bc drawn s F l draws draws' names x0 bounds tried v0.
  intros. apply exact_regressor with (dist := dist) (x0 := x0) (v0 := v0); auto.
Qed.
Print Assumptions C96_make_regressor.

(** The hypotheses hold for training points 0, 1, 3 (the data of C84) with two neighbours and a batch of three rows or more. *)
Example C96_sat : exists knn dist w, sklearn_ok knn dist /\ lower "exact" = "exact" /\ euclidean_kw [] /\
  nn_init false (rows_of ex80_train) 2 "exact" [] = Ok w /\ (2 + 1 = 3)%nat /\ (3 <= 5)%nat /\
  dataset ex80_train 3 /\ shape ex80_targets = [3%nat] /\ distinct_rows ex80_train 3 (fun i => i) /\
  model_ok ex84_store ex84 /\ bounds_ok ex84_store ex84 /\ positive_bounds ex84_store ex84 /\
  leading_free ex84_store (k_ls (m_kernel (f_attr ex84))) /\
  get_opt_params ex84_store (f_attr ex84) = Ok (["length_scale"], [Fin 1], [(Fin (1/2), Fin 2)]) /\
  ~ In "noise" ["length_scale"] /\
  trainable ex84_store ex84 ex80_train 3 2 /\ full_noise ex84_store ex84 = HomoscedasticNoise (1/100) /\ 0 <= 1/100 /\
  model_fixed ex84_store (f_attr ex84) = Ok false /\
  returns_best ex84_opt ex84_store ex84 ["length_scale"] [(Fin (1/2), Fin 2)] (fun _ y => y = [1]) /\
  (exists ix nn, batch_ok ex80_train ex80_targets ix nn 3 3 2 (fun x => x) (fun x j => if (j <? x)%nat then j else S j)) /\
  perm_on 3 (fun x => x) /\ (forall x, (x < 3)%nat -> others_of 3 2 x (fun j => if (j <? x)%nat then j else S j)) /\
  full_sound (full_noise ex84_store ex84) ex80_train 3.
Proof.
  destruct C84_sat as (knn & dist & w & H1 & H2 & H3 & H4 & _ & _ & _ & _ & H5 & H6 & H7 & _ & H8 & H9 & H10 & H11 & H12 & H13 & TR & H14 & H15 & H16 & H17 & _).
  exists knn, dist, w. repeat (split; [assumption || lia|]).
  split.
  { exists (index_vector [0; 1; 2]%nat), (index_array 2 [[1; 2]; [0; 2]; [0; 1]]%nat).
    split; [left; reflexivity|]. split; [reflexivity|]. split; [lia|]. split; [lia|]. split; [reflexivity|]. split.
    - intros x Hx. destruct x as [|[|[|x]]]; [| | |lia]; (split; [reflexivity|lia]).
    - split; [reflexivity|]. intros x j Hx Hj. destruct x as [|[|[|x]]]; [| | |lia]; (destruct j as [|[|j]]; [| |lia]); (split; [reflexivity|cbn; lia]). }
  split; [split; auto|]. split.
  { intros x Hx. split.
    - intros j Hj. destruct (Nat.ltb_spec j x); lia.
    - intros i j Hi Hj. destruct (Nat.ltb_spec i x), (Nat.ltb_spec j x); lia. }
  left. cbn. lra.
Qed.
