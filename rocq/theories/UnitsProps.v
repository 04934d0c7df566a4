(** Responses measured in another unit (C93). *)
From Coq Require Import Lia Lra.
From Verif Require Import Base NdModel RSum LinAlgModel LinAlgSpec GPModel NoiseModel MuyGPSModel GPSpec ScaleSpec
  TensorModel TensorSpec HyperModel HyperSpec NamedModel NamedSpec KernelModel KernelSpec FlowSpec PointwiseSpec LibSpec
  LossModel LossSpec ChassisModel ChassisSpec MultiModel DriverModel ClassifyModel NeighborsModel NeighborsSpec NeighborsProofs BatchProofs
  WorkModel WorkSpec WorkLemmas WorkProps TrainModel TrainSpec TrainProps UnitsSpec UnitsProofs2 UnitsProofs3.
Local Open Scope R_scope.
Local Open Scope string_scope.

(** Multiplying every response by [a] changes the training objective, at every point of the box, exactly as the unit of the loss says:
    squared errors by [a^2]; the (analytically scaled) log likelihoods by a constant that is the same for every candidate. *)
Theorem C93_objective : forall ls, exact_solver ls -> forall sld eps gamma kv s F l kw kw' draws train targets targets' ix nn N b n c q names x0 bounds t t' a,
  model_ok s F -> bounds_ok s F -> positive_bounds s F -> leading_free s (k_ls (m_kernel (f_attr F))) ->
  get_opt_params s (f_attr F) = Ok (names, x0, bounds) -> (f_kind F = FixedScale \/ ~ In "noise" names) ->
  trainable s F train b n -> loo_well_posed (full_noise s F) train b n c q ->
  batch_ok train targets ix nn N b n c q -> loss_kw_ok kw -> loss_kw_ok kw' -> scores_vectors l ->
  a <> 0 -> rescaled a targets targets' N [] -> units_kw l a kw kw' ->
  (l = Lool \/ l = Looph -> (exists it, f_kind F = AnalyticScale it) /\ exists x j, (x < b)%nat /\ (j < n)%nat /\ at_ targets [q x j] <> 0) ->
  full_train_tensors F ix nn train targets = Ok t -> full_train_tensors F ix nn train targets' = Ok t' ->
  forall x, in_box x bounds -> exists v v',
    obj_fn ls sld eps gamma kv s F l kw None draws (tr_pair t) (tr_cross t) (tr_nn_targets t) (tr_targets t) (combine names x) = Ok v /\
    obj_fn ls sld eps gamma kv s F l kw' None draws (tr_pair t') (tr_cross t') (tr_nn_targets t') (tr_targets t') (combine names x) = Ok v' /\
    in_units l a b v v'.
Proof.
  intros ls EX sld eps gamma kv s F l kw kw' draws train targets targets' ix nn N b n c q names x0 bounds t t' a.
  intros. eapply objective_units; eauto.
Qed.
Print Assumptions C93_objective.

(** ... so the ranking of the candidates does not depend on the unit. *)
Theorem C93_ranking : forall ls, exact_solver ls -> forall sld eps gamma kv s F l kw kw' draws train targets targets' ix nn N b n c q names x0 bounds t t' a,
  model_ok s F -> bounds_ok s F -> positive_bounds s F -> leading_free s (k_ls (m_kernel (f_attr F))) ->
  get_opt_params s (f_attr F) = Ok (names, x0, bounds) -> (f_kind F = FixedScale \/ ~ In "noise" names) ->
  trainable s F train b n -> loo_well_posed (full_noise s F) train b n c q ->
  batch_ok train targets ix nn N b n c q -> loss_kw_ok kw -> loss_kw_ok kw' -> scores_vectors l ->
  a <> 0 -> rescaled a targets targets' N [] -> units_kw l a kw kw' ->
  (l = Lool \/ l = Looph -> (exists it, f_kind F = AnalyticScale it) /\ exists x j, (x < b)%nat /\ (j < n)%nat /\ at_ targets [q x j] <> 0) ->
  full_train_tensors F ix nn train targets = Ok t -> full_train_tensors F ix nn train targets' = Ok t' ->
  forall x y, in_box x bounds -> in_box y bounds -> exists vx vy vx' vy',
    obj_fn ls sld eps gamma kv s F l kw None draws (tr_pair t) (tr_cross t) (tr_nn_targets t) (tr_targets t) (combine names x) = Ok vx /\
    obj_fn ls sld eps gamma kv s F l kw None draws (tr_pair t) (tr_cross t) (tr_nn_targets t) (tr_targets t) (combine names y) = Ok vy /\
    obj_fn ls sld eps gamma kv s F l kw' None draws (tr_pair t') (tr_cross t') (tr_nn_targets t') (tr_targets t') (combine names x) = Ok vx' /\
    obj_fn ls sld eps gamma kv s F l kw' None draws (tr_pair t') (tr_cross t') (tr_nn_targets t') (tr_targets t') (combine names y) = Ok vy' /\
    (vx <= vy <-> vx' <= vy').
Proof.
  intros ls EX sld eps gamma kv s F l kw kw' draws train targets targets' ix nn N b n c q names x0 bounds t t' a
    MO BO PB LF EO SK TR WP BK KW KW' LS A RS UK AN Et Et' x y BX BY.
  assert (UN := objective_units ls EX sld eps gamma kv s F l kw kw' draws train targets targets' ix nn N b n c q names x0 bounds t t' a
    MO BO PB LF EO SK TR WP BK KW KW' LS A RS UK AN Et Et').
  destruct (UN x BX) as (vx & vx' & E1 & E2 & U1). destruct (UN y BY) as (vy & vy' & E3 & E4 & U2).
  exists vx, vy, vx', vy'. repeat (split; [assumption|]). apply (in_units_order l a b); auto.
Qed.
Print Assumptions C93_ranking.

(** The analytic scale is a variance: it is multiplied by [a^2], and the failure on a scale of zero does not depend on the unit. *)
Theorem C93_scale : forall ls, exact_solver ls -> forall gamma kv s F K train targets targets' ix nn N b n c q draws t t' a it,
  trainable s F train b n -> f_bound F = f_attr F -> full_lib s F = Some K -> loo_well_posed (full_noise s F) train b n c q ->
  batch_ok train targets ix nn N b n c q -> rescaled a targets targets' N [] -> a <> 0 -> f_kind F = AnalyticScale it ->
  full_train_tensors F ix nn train targets = Ok t -> full_train_tensors F ix nn train targets' = Ok t' ->
  exists sc, full_optimize_scale ls gamma kv s F draws (tr_pair t) (tr_nn_targets t) =
      (if Rleb sc 0 then Err ValueError else Ok (with_scale F sc)) /\
    full_optimize_scale ls gamma kv s F draws (tr_pair t') (tr_nn_targets t') =
      (if Rleb sc 0 then Err ValueError else Ok (with_scale F (a ^ 2 * sc))) /\
    ml_scale b n (nbr_matrix (lk_cov gamma kv K (feature_count train) (reals s) []) (full_noise s F) train q) (fun x i => at_ targets [q x i]) sc.
Proof.
  intros ls EX gamma kv s F K train targets targets' ix nn N b n c q draws t t' a it. intros. eapply scale_units; eauto.
Qed.
Print Assumptions C93_scale.

(** A model whose scale is [a^2] times larger predicts, from responses [a] times larger, means [a] times larger and variances [a^2] times larger. *)
Theorem C93_predictions : forall ls, exact_solver ls -> forall gamma kv knn hnsw dist, sklearn_ok knn dist ->
  forall en method kw w g g' K cur test train targets targets' N M n ex a,
  lower method = "exact" -> euclidean_kw kw -> nn_init en (rows_of train) n method kw = Ok w -> (0 < n <= N /\ 0 < M)%nat ->
  dataset test M -> dataset train N -> ndim test = ndim train -> feature_count test = feature_count train ->
  lk_ok K (feature_count train) cur [] -> no_coincidence ex [n] ->
  shape (gp_Kout g) = [] -> at_ (gp_Kout g) [] = 1 -> shape (gp_Kout g') = [] -> at_ (gp_Kout g') [] = 1 -> 0 <= gp_var_scale g ->
  noise_fits (gp_noise g) M n -> sound_noise (gp_noise g) train N M n ->
  gp_noise g' = gp_noise g -> gp_var_scale g' = a ^ 2 * gp_var_scale g -> rescaled a targets targets' N ex ->
  exists mean var mean' var',
    regress_any ls knn hnsw (Univariate (lib_model gamma kv g K cur)) test train w targets = Ok (mean, var) /\
    regress_any ls knn hnsw (Univariate (lib_model gamma kv g' K cur)) test train w targets' = Ok (mean', var') /\
    forall x, (x < M)%nat -> at_ var' [x] = a ^ 2 * at_ var [x] /\ forall e, inb ex e -> at_ mean' (x :: e) = a * at_ mean (x :: e).
Proof. intros ls EX gamma kv knn hnsw dist Hsk en method kw w g g' K cur test train targets targets' N M n ex a. intros. eapply predictions_units; eauto. Qed.
Print Assumptions C93_predictions.

(** End to end: do_regress with an analytic scale and an optimizer that only compares objective values returns, for responses in another
    unit, the same hyperparameters and lookup, the scale times [a^2], the means times [a] and the variances times [a^2]. *)
Theorem C93_do_regress : forall ls, exact_solver ls -> forall sld eps gamma kv knn hnsw dist, sklearn_ok knn dist ->
  forall opt en method kw w test train targets targets' N M n bc drawn s F l draws draws' names x0 bounds tried v0 a it,
  lower method = "exact" -> euclidean_kw kw -> nn_init en (rows_of train) n method kw = Ok w -> (n + 1 <= N /\ 0 < M)%nat ->
  dataset test M -> ndim test = ndim train -> feature_count test = feature_count train ->
  dataset train N -> distinct_rows train N (fun i => i) -> (0 < bc)%nat -> (0 < n)%nat ->
  valid_choice (seq 0 N) bc drawn \/ (N <= bc)%nat ->
  model_ok s F -> bounds_ok s F -> positive_bounds s F -> leading_free s (k_ls (m_kernel (f_attr F))) ->
  get_opt_params s (f_attr F) = Ok (names, x0, bounds) -> ~ In "noise" names ->
  trainable s F train (Nat.min bc N) n -> full_noise s F = HomoscedasticNoise v0 -> 0 <= v0 ->
  l = Mse \/ l = Lool \/ l = Looph -> f_kind F = AnalyticScale it ->
  model_fixed s (f_attr F) = Ok false -> returns_best opt s F names bounds tried -> compares_only opt s F names bounds ->
  a <> 0 -> rescaled a targets targets' N [] ->
  forall s' F' w' mean var,
  train_and_regress ls sld eps gamma kv opt knn hnsw en test train targets n bc method kw drawn s F l draws draws' = Ok (s', F', w', (mean, var)) ->
  exists mean' var',
    train_and_regress ls sld eps gamma kv opt knn hnsw en test train targets' n bc method kw drawn s F l draws draws'
      = Ok (s', with_scale F' (a ^ 2 * f_scale F'), w', (mean', var')) /\
    forall x, (x < M)%nat -> at_ mean' [x] = a * at_ mean [x] /\ at_ var' [x] = a ^ 2 * at_ var [x].
Proof.
  intros ls EX sld eps gamma kv knn hnsw dist Hsk opt en method kw w test train targets targets' N M n bc drawn s F l draws draws' names x0 bounds tried v0 a it.
  intros. eapply do_regress_units; eauto.
Qed.
Print Assumptions C93_do_regress.

(** The data and the model of C84_sat with the responses doubled; an optimizer that evaluates two candidates and keeps the better one. *)
Definition ex93_targets : nd R := mkNd [3%nat] (fun idx => 2 * INR (hd O idx)).
Definition ex93_opt (s : store) (F : full) (f : dict R -> result R) : result (store * full) :=
  match f (combine ["length_scale"] [1]), f (combine ["length_scale"] [3/2]) with
  | Ok v, Ok w => new_muygps s F ["length_scale"] [(Fin (1/2), Fin 2)]
      (combine ["length_scale"] (map Fin (if Rle_dec v w then [3/2] else [1])))
  | _, _ => Err ValueError
  end.
Example C93_sat : rescaled 2 ex80_targets ex93_targets 3 [] /\ f_kind ex84 = AnalyticScale 1 /\
  returns_best ex93_opt ex84_store ex84 ["length_scale"] [(Fin (1/2), Fin 2)] (fun _ y => y = [1] \/ y = [3/2]) /\
  compares_only ex93_opt ex84_store ex84 ["length_scale"] [(Fin (1/2), Fin 2)] /\
  (exists x j, (x < 2)%nat /\ (j < 2)%nat /\
     at_ ex80_targets [match x, j with O, O => 1%nat | O, _ => O | _, O => 1%nat | _, _ => 2%nat end] <> 0).
Proof.
  assert (B1 : in_box [1] [(Fin (1/2), Fin 2)]) by (constructor; [split; intros C; inversion C; lra|constructor]).
  assert (B2 : in_box [3/2] [(Fin (1/2), Fin 2)]) by (constructor; [split; intros C; inversion C; lra|constructor]).
  split. { split; [reflexivity|]. split; [reflexivity|]. intros i e Hi _. reflexivity. }
  split; [reflexivity|]. split.
  { intros f D. destruct (D _ B1) as (v & E1). destruct (D _ B2) as (w & E2). unfold ex93_opt. rewrite E1, E2.
    destruct (Rle_dec v w) as [L|L].
    - exists [3/2]. split; [exact B2|]. split; [reflexivity|]. intros y vx vy [->| ->] _ X Y; rewrite E2 in X; injection X as <-.
      + rewrite E1 in Y. injection Y as <-. exact L.
      + rewrite E2 in Y. injection Y as <-. lra.
    - exists [1]. split; [exact B1|]. split; [reflexivity|]. intros y vx vy [->| ->] _ X Y; rewrite E1 in X; injection X as <-.
      + rewrite E1 in Y. injection Y as <-. lra.
      + rewrite E2 in Y. injection Y as <-. lra. }
  split.
  { intros f f' D C. destruct (D _ B1) as [(v & E1) (v' & E1')]. destruct (D _ B2) as [(w & E2) (w' & E2')].
    unfold ex93_opt. rewrite E1, E2, E1', E2'. pose proof (C [1] [3/2] v w v' w' B1 B2 E1 E2 E1' E2') as X.
    destruct (Rle_dec v w), (Rle_dec v' w'); tauto. }
  exists 0%nat, 0%nat. split; [lia|]. split; [lia|]. cbn. lra.
Qed.
