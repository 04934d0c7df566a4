(** Property theorems C97: training does not depend on the coordinates of the features. *)
From Coq Require Import Lia Lra.
From Verif Require Import Base NdModel RSum LinAlgModel LinAlgSpec GPModel NoiseModel MuyGPSModel GPSpec ScaleSpec
  TensorModel TensorSpec HyperModel HyperSpec NamedModel NamedSpec KernelModel KernelSpec FlowSpec PointwiseSpec LibSpec
  LossModel LossSpec ChassisModel ChassisSpec MultiModel DriverModel ClassifyModel NeighborsModel NeighborsSpec NeighborsProofs BatchProofs
  WorkModel WorkSpec WorkLemmas WorkProps TrainModel TrainSpec TrainProps SimSpec SimProofs UnitsSpec UnitsProps SimTrainSpec SimTrainProofs SimTrainProofs2.
Local Open Scope R_scope.
Local Open Scope string_scope.

(** Distances multiplied by [r], the number of features possibly different: the objective of an isotropic model is the same function of its
    hyperparameters, once the length scale is multiplied by [r] as well.  With [r = 1] (moved, rotated, reflected or embedded data) the
    objective is unchanged. *)
Theorem C97_objective : forall ls, exact_solver ls -> forall sld eps gamma kv s F l kw draws train train' targets ix nn nn' N b n c q q' names x0 bounds t t' nm r,
  model_ok s F -> bounds_ok s F -> positive_bounds s F -> k_ls (m_kernel (f_attr F)) = LSScalar nm ->
  get_opt_params s (f_attr F) = Ok (names, x0, bounds) -> (f_kind F = FixedScale \/ ~ In "noise" names) ->
  trainable s F train b n -> loo_well_posed (full_noise s F) train b n c q ->
  batch_ok train targets ix nn N b n c q -> loss_kw_ok kw -> scores_vectors l ->
  dataset train' N -> index_matrix nn' b n N q' -> (forall x j, (x < b)%nat -> (j < n)%nat -> q' x j = q x j) ->
  (0 < feature_count train')%nat -> 0 < r ->
  (forall i j, (i < N)%nat -> (j < N)%nat -> row_dist train' train' i j = r ^ 2 * row_dist train train i j) ->
  (r = 1 \/ p_fixed (st_cell s (nm_loc nm)) = false) ->
  full_train_tensors F ix nn train targets = Ok t -> full_train_tensors F ix nn' train' targets = Ok t' ->
  forall x x', in_box x bounds -> in_box x' bounds -> with_scaled r (nm_name nm) names x x' -> exists v,
    obj_fn ls sld eps gamma kv s F l kw None draws (tr_pair t) (tr_cross t) (tr_nn_targets t) (tr_targets t) (combine names x) = Ok v /\
    obj_fn ls sld eps gamma kv s F l kw None draws (tr_pair t') (tr_cross t') (tr_nn_targets t') (tr_targets t') (combine names x') = Ok v.
Proof. exact objective_similar. Qed.
Print Assumptions C97_objective.

(** End to end, isotropic models: do_regress on moved, rotated, reflected or embedded data returns the same model, and the same predictions
    of the test rows whose distances are not tied. *)
Theorem C97_do_regress : forall ls, exact_solver ls -> forall sld eps gamma kv knn hnsw dist, sklearn_ok knn dist ->
  forall opt en method kw w w0 test train test' train' targets N M n bc drawn s F l draws draws' names x0 bounds tried v0 nm,
  lower method = "exact" -> euclidean_kw kw -> nn_init en (rows_of train) n method kw = Ok w -> nn_init en (rows_of train') n method kw = Ok w0 ->
  (n + 1 <= N /\ 0 < M)%nat ->
  dataset test M -> ndim test = ndim train -> feature_count test = feature_count train ->
  dataset test' M -> ndim test' = ndim train' -> feature_count test' = feature_count train' -> (0 < feature_count train')%nat ->
  dataset train N -> dataset train' N -> shape targets = [N] -> distinct_rows train N (fun i => i) -> (0 < bc)%nat -> (0 < n)%nat ->
  valid_choice (seq 0 N) bc drawn \/ (N <= bc)%nat ->
  model_ok s F -> bounds_ok s F -> positive_bounds s F -> k_ls (m_kernel (f_attr F)) = LSScalar nm ->
  get_opt_params s (f_attr F) = Ok (names, x0, bounds) -> (f_kind F = FixedScale \/ ~ In "noise" names) ->
  trainable s F train (Nat.min bc N) n -> full_noise s F = HomoscedasticNoise v0 -> 0 <= v0 ->
  scores_vectors l -> model_fixed s (f_attr F) = Ok false -> returns_best opt s F names bounds tried -> values_only opt s F names bounds ->
  similar 1 test train test' train' M N -> (forall a, (a < N)%nat -> no_ties train train N a) ->
  forall s' F' w' mean var,
  train_and_regress ls sld eps gamma kv opt knn hnsw en test train targets n bc method kw drawn s F l draws draws' = Ok (s', F', w', (mean, var)) ->
  exists mean' var',
    train_and_regress ls sld eps gamma kv opt knn hnsw en test' train' targets n bc method kw drawn s F l draws draws' = Ok (s', F', w0, (mean', var')) /\
    forall x, (x < M)%nat -> no_ties test train N x -> at_ mean' [x] = at_ mean [x] /\ at_ var' [x] = at_ var [x].
Proof.
  intros ls EX sld eps gamma kv knn hnsw dist Hsk. intros. eapply do_regress_rigid; eauto.
Qed.
Print Assumptions C97_do_regress.

(** End to end, isotropic or anisotropic models: measuring every feature from another origin changes neither the trained model nor the
    predictions. *)
Theorem C97_origin : forall ls, exact_solver ls -> forall sld eps gamma kv knn hnsw dist, sklearn_ok knn dist ->
  forall opt en method kw w w0 test train test' train' targets N M n bc drawn s F l draws draws' names x0 bounds tried v0 t,
  lower method = "exact" -> euclidean_kw kw -> nn_init en (rows_of train) n method kw = Ok w -> nn_init en (rows_of train') n method kw = Ok w0 ->
  (n + 1 <= N /\ 0 < M)%nat ->
  dataset test M -> ndim test = ndim train -> feature_count test = feature_count train ->
  dataset train N -> shape targets = [N] -> distinct_rows train N (fun i => i) -> (0 < bc)%nat -> (0 < n)%nat ->
  valid_choice (seq 0 N) bc drawn \/ (N <= bc)%nat ->
  model_ok s F -> bounds_ok s F -> positive_bounds s F -> leading_free s (k_ls (m_kernel (f_attr F))) ->
  get_opt_params s (f_attr F) = Ok (names, x0, bounds) -> (f_kind F = FixedScale \/ ~ In "noise" names) ->
  trainable s F train (Nat.min bc N) n -> full_noise s F = HomoscedasticNoise v0 -> 0 <= v0 ->
  scores_vectors l -> model_fixed s (f_attr F) = Ok false -> returns_best opt s F names bounds tried -> values_only opt s F names bounds ->
  new_units (fun _ => 1) t test test' M -> new_units (fun _ => 1) t train train' N -> (forall a, (a < N)%nat -> no_ties train train N a) ->
  forall s' F' w' mean var,
  train_and_regress ls sld eps gamma kv opt knn hnsw en test train targets n bc method kw drawn s F l draws draws' = Ok (s', F', w', (mean, var)) ->
  exists mean' var',
    train_and_regress ls sld eps gamma kv opt knn hnsw en test' train' targets n bc method kw drawn s F l draws draws' = Ok (s', F', w0, (mean', var')) /\
    forall x, (x < M)%nat -> no_ties test train N x -> at_ mean' [x] = at_ mean [x] /\ at_ var' [x] = at_ var [x].
Proof.
  intros ls EX sld eps gamma kv knn hnsw dist Hsk. intros. eapply do_regress_origin; eauto.
Qed.
Print Assumptions C97_origin.

(** The data of C84_sat laid out along any line of the plane; the optimizer of C93_sat (the model itself and its other hypotheses: C84_sat). *)
Definition ex97_embed (theta : R) (X : nd R) (n : nat) : nd R :=
  mkNd [n; 2%nat] (fun idx => match idx with [i; O] => 1 + feature X i 0 * cos theta | [i; _] => feature X i 0 * sin theta | _ => 0 end).
Example C97_sat : forall theta, exists w w0,
  nn_init false (rows_of ex80_train) 2 "exact" [] = Ok w /\ nn_init false (rows_of (ex97_embed theta ex80_train 3)) 2 "exact" [] = Ok w0 /\
  similar 1 ex80_test ex80_train (ex97_embed theta ex80_test 2) (ex97_embed theta ex80_train 3) 2 3 /\
  dataset (ex97_embed theta ex80_test 2) 2 /\ dataset (ex97_embed theta ex80_train 3) 3 /\
  (forall a, (a < 3)%nat -> no_ties ex80_train ex80_train 3 a) /\ no_ties ex80_test ex80_train 3 1 /\
  k_ls (m_kernel (f_attr ex84)) = LSScalar (mkNamed "length_scale" 1) /\
  values_only ex93_opt ex84_store ex84 ["length_scale"] [(Fin (1/2), Fin 2)] /\
  with_scaled 2 "length_scale" ["length_scale"] [3/4] [3/2] /\ in_box [3/4] [(Fin (1/2), Fin 2)] /\ in_box [3/2] [(Fin (1/2), Fin 2)].
Proof.
  intros theta. do 2 eexists. split; [reflexivity|]. split; [reflexivity|].
  assert (B1 : in_box [1] [(Fin (1/2), Fin 2)]) by (constructor; [split; intros C; inversion C; lra|constructor]).
  assert (B2 : in_box [3/2] [(Fin (1/2), Fin 2)]) by (constructor; [split; intros C; inversion C; lra|constructor]).
  split; [|split; [right; eexists; reflexivity|split; [right; eexists; reflexivity|]]].
  { assert (E : forall X Y n m x a, shape Y = [3%nat] -> row_dist (ex97_embed theta X n) (ex97_embed theta Y m) x a = 1 ^ 2 * row_dist X Y x a).
    { intros X Y n m x a SY. unfold row_dist, sqdist. change (feature_count (ex97_embed theta Y m)) with 2%nat.
      assert (FY : feature_count Y = 1%nat) by (unfold feature_count; rewrite SY; reflexivity). rewrite FY. cbn [rsum].
      unfold feature at 1 2 3 4. unfold ex97_embed. cbn [shape at_].
      pose proof (sin2_cos2 theta) as SC. unfold Rsqr in SC.
      set (u := feature X x 0). set (v := feature Y a 0). set (cc := cos theta) in *. set (ss := sin theta) in *.
      replace (0 + (1 + u * cc - (1 + v * cc)) ^ 2 + (u * ss - v * ss) ^ 2) with ((u - v) ^ 2 * (ss * ss + cc * cc)) by ring.
      rewrite SC. ring. }
    split; intros; apply E; reflexivity. }
  split.
  { intros x Hx a b Ha Hb. unfold row_dist, sqdist, feature, feature_count, ex80_train. cbn [shape at_ rsum].
    destruct x as [|[|[|x]]]; [| | |lia]; (destruct a as [|[|[|a]]]; [| | |lia]); (destruct b as [|[|[|b]]]; [| | |lia]);
      intros E; try reflexivity; exfalso; lra. }
  split. { destruct C80_sat as (knn & dist & w & w' & H). decompose [and] H. assumption. }
  split; [reflexivity|]. split.
  { intros f f' D. destruct (D _ B1) as (v & E1 & E1'). destruct (D _ B2) as (w & E2 & E2').
    unfold ex93_opt. rewrite E1, E2, E1', E2'. reflexivity. }
  split.
  { intros h. cbn [combine dget]. unfold dget. cbn [find fst snd]. destruct (String.eqb "length_scale" h) eqn:Q.
    - apply String.eqb_eq in Q. subst h. cbn. apply (f_equal Some). lra.
    - reflexivity. }
  split; [|exact B2]. constructor; [split; intros C; inversion C; lra|constructor].
Qed.
