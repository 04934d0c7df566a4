(** C71-C78: Gaussian process layers of torch models, prediction with an embedding, and training of deep kernels. *)
From Coq Require Import Lia Lra.
From Verif Require Import Base BaseFacts NdModel NdFacts RSum LinAlgModel LinAlgSpec LinAlgFacts Gauss GPModel NoiseModel MuyGPSModel GPSpec
  TensorModel TensorSpec FlowModel FlowSpec FlowProofs FlowLemmas MultiModel MultiSpec LossModel LossSpec
  BackendModel NeighborsModel DeepModel DeepSpec DeepProofs DeepLemmas DeepLemmas2.
Local Open Scope R_scope.

(** ** C71: the layers compute the posterior of the embedded data with their current hyperparameters *)
Theorem C71_single_layer : forall ls y F k x responses N b w q c r,
  exact_solver ls -> pointwise_kernel F (l1_kernel y (l1_length_scale y)) k -> shape x = [N; F] ->
  shape responses = [N; r] -> take responses (l1_nn_indices y) = Ok (l1_nn_targets y) -> shape (gp_Kout (l1_gp y)) = [] ->
  shape (l1_indices y) = [b] -> (forall a, (a < b)%nat -> at_ (l1_indices y) [a] = Z.of_nat (c a) /\ (c a < N)%nat) ->
  index_matrix (l1_nn_indices y) b w N q -> r <> w -> noise_fits (gp_noise (l1_gp y)) b w ->
  (forall a, (a < b)%nat -> nonsingular w (nbr_matrix k (gp_noise (l1_gp y)) x q a)) ->
  exists p v, layer1_forward ls y x = Ok (p, v) /\ shape p = [b; r] /\ shape v = [b] /\
    (forall a s, (a < b)%nat -> (s < r)%nat ->
      kriging w (nbr_matrix k (gp_noise (l1_gp y)) x q a) (fun j => kcov k x x (c a) (q a j))
        (fun j => at_ responses [q a j; s]) (at_ p [a; s])) /\
    (forall a, (a < b)%nat -> exists wv,
      solves w (nbr_matrix k (gp_noise (l1_gp y)) x q a) wv (fun j => kcov k x x (c a) (q a j)) /\
      at_ v [a] = gp_scale (l1_gp y) * (at_ (gp_Kout (l1_gp y)) [] - dot w wv (fun j => kcov k x x (c a) (q a j)))).
Proof. exact layer1_posterior. Qed.
Print Assumptions C71_single_layer.

Theorem C71_multivariate_layer : forall ls y F k x responses N b w q c r,
  exact_solver ls -> shape x = [N; F] -> shape responses = [N; r] -> take responses (lM_nn_indices y) = Ok (lM_nn_targets y) ->
  (List.length (lM_models y) <= r)%nat ->
  (forall i m, nth_error (lM_models y) i = Some m -> pointwise_kernel F (mm_kernel m) (k i) /\ noise_fits (gp_noise (mm_gp m)) b w /\
     shape (gp_Kout (mm_gp m)) = [] /\
     (forall a, (a < b)%nat -> nonsingular w (nbr_matrix (k i) (gp_noise (mm_gp m)) x q a))) ->
  shape (lM_indices y) = [b] -> (forall a, (a < b)%nat -> at_ (lM_indices y) [a] = Z.of_nat (c a) /\ (c a < N)%nat) ->
  index_matrix (lM_nn_indices y) b w N q -> w <> 1%nat ->
  exists p v, layerM_forward ls y x = Ok (p, v) /\ shape p = [b; r] /\ shape v = [b; List.length (lM_models y)] /\
    (forall i m a, nth_error (lM_models y) i = Some m -> (a < b)%nat ->
      kriging w (nbr_matrix (k i) (gp_noise (mm_gp m)) x q a) (fun j => kcov (k i) x x (c a) (q a j))
        (fun j => at_ responses [q a j; i]) (at_ p [a; i])) /\
    (forall i m a, nth_error (lM_models y) i = Some m -> (a < b)%nat -> exists wv,
      solves w (nbr_matrix (k i) (gp_noise (mm_gp m)) x q a) wv (fun j => kcov (k i) x x (c a) (q a j)) /\
      at_ v [a; i] = gp_scale (mm_gp m) * (gp_var_scale (mm_gp m) *
        (at_ (gp_Kout (mm_gp m)) [] - dot w wv (fun j => kcov (k i) x x (c a) (q a j))))).
Proof. exact layerM_posterior. Qed.
Print Assumptions C71_multivariate_layer.

Theorem C71_constructors : forall d g kern l bounds ix nn targets nn_targets ms,
  (d = IsotropyScalar -> layer1_init d g kern l bounds ix nn targets nn_targets = Ok (mkLayer1 g kern l bounds ix nn targets nn_targets)) /\
  (d <> IsotropyScalar -> layer1_init d g kern l bounds ix nn targets nn_targets = Err NotImplementedError) /\
  (ms <> [] -> layerM_init ms ix nn targets nn_targets = Ok (mkLayerM ms ix nn targets nn_targets)) /\
  (ms = [] -> layerM_init ms ix nn targets nn_targets = Err IndexError).
Proof. exact layer_constructors. Qed.
Print Assumptions C71_constructors.

(** The documented variance shape is (batch_count, response_count); the single layer returns (batch_count,). *)
Theorem C71_variance_shape_refuted : exists y x p v, layer1_forward gauss y x = Ok (p, v) /\ shape p = [3; 1]%nat /\ shape v <> shape p.
Proof. exact variance_shape. Qed.
Print Assumptions C71_variance_shape_refuted.

Example C71_sat : exact_solver gauss /\ pointwise_kernel 1 exk_nd exk /\ take ex_targets ex_nn = Ok (exd_taken ex_nn) /\
  index_matrix ex_nn 3 2 3 ex_q /\ (forall a, (a < 3)%nat -> nonsingular 2 (nbr_matrix exk NullNoise ex_train ex_q a)).
Proof. exact exd_sat. Qed.

(** ** C72: predictions with an embedding are kriging on the embedded data *)
Section Prediction.
Variable P : Type.
Variable emb : bool -> nat -> P -> nd R -> nd R.
Variable L : Type.
Variable query : L -> nd R -> nat -> result (nd Z).
Variable ls : lsolver.
Notation predict := (predict_model P emb L query ls).

(** The forward pass of a whole model is the layer's forward pass of the embedded features; only the count of embedding calls moves. *)
Theorem C71_model_forward : exact_solver ls -> forall m wt y x xe F k responses N b w q c r,
  dm_embedding P m = Some wt -> xe = emb (dm_training P m) (dm_draws P m) wt x -> shape xe = [N; F] -> shape responses = [N; r] ->
  forall ix nn T, index_matrix nn b w N q -> take responses nn = Ok T -> shape ix = [b] ->
  (forall a, (a < b)%nat -> at_ ix [a] = Z.of_nat (c a) /\ (c a < N)%nat) ->
  (dm_layer P m = Some (Multi y) -> lM_indices y = ix -> lM_nn_indices y = nn -> lM_nn_targets y = T -> (List.length (lM_models y) <= r)%nat -> w <> 1%nat ->
   (forall i g, nth_error (lM_models y) i = Some g -> pointwise_kernel F (mm_kernel g) (k i) /\ noise_fits (gp_noise (mm_gp g)) b w /\
      shape (gp_Kout (mm_gp g)) = [] /\ (forall a, (a < b)%nat -> nonsingular w (nbr_matrix (k i) (gp_noise (mm_gp g)) xe q a))) ->
   exists p v m', forward P emb ls m x = Ok (p, v, m') /\ m' = mkDeep P (Some wt) (Some (Multi y)) (dm_nn_indices P m) (dm_nn_targets P m) (dm_training P m) (S (dm_draws P m)) /\
     shape p = [b; r] /\ shape v = [b; List.length (lM_models y)] /\
     (forall i g a, nth_error (lM_models y) i = Some g -> (a < b)%nat ->
       kriging w (nbr_matrix (k i) (gp_noise (mm_gp g)) xe q a) (fun j => kcov (k i) xe xe (c a) (q a j)) (fun j => at_ responses [q a j; i]) (at_ p [a; i])) /\
     (forall i g a, nth_error (lM_models y) i = Some g -> (a < b)%nat -> exists wv,
       solves w (nbr_matrix (k i) (gp_noise (mm_gp g)) xe q a) wv (fun j => kcov (k i) xe xe (c a) (q a j)) /\
       at_ v [a; i] = gp_scale (mm_gp g) * (gp_var_scale (mm_gp g) * (at_ (gp_Kout (mm_gp g)) [] - dot w wv (fun j => kcov (k i) xe xe (c a) (q a j)))))) /\
  (forall z, dm_layer P m = Some (Single z) -> l1_indices z = ix -> l1_nn_indices z = nn -> l1_nn_targets z = T -> r <> w ->
   pointwise_kernel F (l1_kernel z (l1_length_scale z)) (k 0%nat) -> shape (gp_Kout (l1_gp z)) = [] -> noise_fits (gp_noise (l1_gp z)) b w ->
   (forall a, (a < b)%nat -> nonsingular w (nbr_matrix (k 0%nat) (gp_noise (l1_gp z)) xe q a)) ->
   exists p v m', forward P emb ls m x = Ok (p, v, m') /\ m' = mkDeep P (Some wt) (Some (Single z)) (dm_nn_indices P m) (dm_nn_targets P m) (dm_training P m) (S (dm_draws P m)) /\
     shape p = [b; r] /\ shape v = [b] /\
     (forall a s, (a < b)%nat -> (s < r)%nat ->
       kriging w (nbr_matrix (k 0%nat) (gp_noise (l1_gp z)) xe q a) (fun j => kcov (k 0%nat) xe xe (c a) (q a j)) (fun j => at_ responses [q a j; s]) (at_ p [a; s])) /\
     (forall a, (a < b)%nat -> exists wv,
       solves w (nbr_matrix (k 0%nat) (gp_noise (l1_gp z)) xe q a) wv (fun j => kcov (k 0%nat) xe xe (c a) (q a j)) /\
       at_ v [a] = gp_scale (l1_gp z) * (at_ (gp_Kout (l1_gp z)) [] - dot w wv (fun j => kcov (k 0%nat) xe xe (c a) (q a j))))).
Proof.
  intros EX m wt y x xe F k responses N b w q c r EE -> Sx SR ix nn T IM ET SI HC. split.
  - intros EL <- <- <- LE W1 HM. destruct (C71_multivariate_layer ls y F k _ responses N b w q c r EX Sx SR ET LE HM SI HC IM W1) as (p & v & E & H).
    eexists p, v, _. unfold forward, embed. rewrite EE. cbn [bind dm_layer]. rewrite EL. cbn [layer_forward]. rewrite E. cbn [bind]. split; [reflexivity|]. auto.
  - intros z EL <- <- <- RW PK SK NF NS. destruct (C71_single_layer ls z F (k 0%nat) _ responses N b w q c r EX PK Sx SR ET SK SI HC IM RW NF NS) as (p & v & E & H).
    eexists p, v, _. unfold forward, embed. rewrite EE. cbn [bind dm_layer]. rewrite EL. cbn [layer_forward]. rewrite E. cbn [bind]. split; [reflexivity|]. auto.
Qed.

Theorem C72_single : exact_solver ls -> forall m wt y nbrs n test train responses nn train_e test_e F k N M w q r,
  train_e = emb (dm_training P m) (dm_draws P m) wt train -> test_e = emb (dm_training P m) (S (dm_draws P m)) wt test ->
  dm_embedding P m = Some wt -> dm_layer P m = Some (Single y) ->
  pointwise_kernel F (l1_kernel y (l1_length_scale y)) k ->
  shape train_e = [N; F] ->
  shape test_e = [M; F] ->
  query nbrs test_e n = Ok nn ->
  shape responses = [N; r] -> shape (gp_Kout (l1_gp y)) = [] -> index_matrix nn M w N q -> r <> w -> noise_fits (gp_noise (l1_gp y)) M w ->
  (forall x, (x < M)%nat -> nonsingular w (nbr_matrix k (gp_noise (l1_gp y)) train_e q x)) ->
  exists p v m', predict m test train responses nbrs n = Ok (p, v, m') /\ shape p = [M; r] /\ shape v = [M] /\
    (forall x s, (x < M)%nat -> (s < r)%nat ->
      kriging w (nbr_matrix k (gp_noise (l1_gp y)) train_e q x)
        (fun j => kcov k test_e train_e x (q x j))
        (fun j => at_ responses [q x j; s]) (at_ p [x; s])) /\
    (forall x, (x < M)%nat -> exists wv,
      solves w (nbr_matrix k (gp_noise (l1_gp y)) train_e q x) wv
        (fun j => kcov k test_e train_e x (q x j)) /\
      at_ v [x] = gp_var_scale (l1_gp y) * (at_ (gp_Kout (l1_gp y)) [] -
        dot w wv (fun j => kcov k test_e train_e x (q x j)))).
Proof.
  intros Hls m wt y nbrs n test train responses nn train_e test_e F k N M w q r -> ->. apply (predict_single P emb L query ls Hls).
Qed.

Theorem C72_multivariate : exact_solver ls -> forall m wt y nbrs n test train responses nn train_e test_e F k N M w q r,
  train_e = emb (dm_training P m) (dm_draws P m) wt train -> test_e = emb (dm_training P m) (S (dm_draws P m)) wt test ->
  dm_embedding P m = Some wt -> dm_layer P m = Some (Multi y) ->
  shape train_e = [N; F] ->
  shape test_e = [M; F] ->
  query nbrs test_e n = Ok nn ->
  shape responses = [N; r] -> (List.length (lM_models y) <= r)%nat ->
  (forall i g, nth_error (lM_models y) i = Some g -> pointwise_kernel F (mm_kernel g) (k i) /\ noise_fits (gp_noise (mm_gp g)) M w /\
     shape (gp_Kout (mm_gp g)) = [] /\
     (forall x, (x < M)%nat -> nonsingular w (nbr_matrix (k i) (gp_noise (mm_gp g)) train_e q x))) ->
  index_matrix nn M w N q -> w <> 1%nat ->
  exists p v m', predict m test train responses nbrs n = Ok (p, v, m') /\ shape p = [M; r] /\ shape v = [M; List.length (lM_models y)] /\
    (forall i g x, nth_error (lM_models y) i = Some g -> (x < M)%nat ->
      kriging w (nbr_matrix (k i) (gp_noise (mm_gp g)) train_e q x)
        (fun j => kcov (k i) test_e train_e x (q x j))
        (fun j => at_ responses [q x j; i]) (at_ p [x; i])) /\
    (forall i g x, nth_error (lM_models y) i = Some g -> (x < M)%nat -> exists wv,
      solves w (nbr_matrix (k i) (gp_noise (mm_gp g)) train_e q x) wv
        (fun j => kcov (k i) test_e train_e x (q x j)) /\
      at_ v [x; i] = gp_scale (mm_gp g) * (gp_var_scale (mm_gp g) * (at_ (gp_Kout (mm_gp g)) [] -
        dot w wv (fun j => kcov (k i) test_e train_e x (q x j))))).
Proof.
  intros Hls m wt y nbrs n test train responses nn train_e test_e F k N M w q r -> ->. apply (predict_multi P emb L query ls Hls).
Qed.

Theorem C72_missing_component : forall m test train responses nbrs n,
  (dm_layer P m = None \/ dm_embedding P m = None) -> predict m test train responses nbrs n = Err NotImplementedError.
Proof. exact (predict_missing P emb L query ls). Qed.
End Prediction.
Print Assumptions C71_model_forward.
Print Assumptions C72_single.
Print Assumptions C72_multivariate.
Print Assumptions C72_missing_component.

Example C72_sat : exists p v m', predict_model R exd_emb (nd R) exd_query gauss exd ex_train ex_train ex_targets ex_train 2 = Ok (p, v, m').
Proof. exact exd_predict_ok. Qed.

(** ** C73-C77: training *)
Section Training.
Variable P : Type.
Variable emb : bool -> nat -> P -> nd R -> nd R.
Variable L : Type.
Variable build : nd R -> nat -> result L.
Variable lookup_count : L -> nat.
Variable query : L -> nd R -> nat -> result (nd Z).
Variables bce ce : nd R -> nd R -> result R.
Variable opt : nat -> P -> list R -> P * list R.
Variable ls : lsolver.
Notation run := (train_deep_kernel P emb L build lookup_count query bce ce opt ls).
Notation update := (update_nearest_neighbors P emb L build query).

(** The lookup that training returns indexes the training data embedded with the final weights, with the neighbour count of the lookup it was
    given, and the neighbours and targets stored in the model are those of the batch in it. *)
Theorem C73_returned_lookup : forall m m' train responses ix nbrs nbrs' iters lf freq,
  run m train responses ix nbrs iters lf freq = Ok (nbrs', m') ->
  exists w d bf, dm_embedding P m' = Some w /\ take train ix = Ok bf /\
    build (emb (dm_training P m') d w train) (lookup_count nbrs) = Ok nbrs' /\
    query nbrs' (emb (dm_training P m') (S d) w bf) (lookup_count nbrs) = Ok (dm_nn_indices P m') /\
    take responses (dm_nn_indices P m') = Ok (dm_nn_targets P m').
Proof. exact (run_lookup P emb L build lookup_count query bce ce ls opt). Qed.

(** The embedding of that lookup is the deployed one (evaluation mode) when the last iteration is an update iteration ... *)
Theorem C73_evaluation_mode_partial : forall m m' train responses ix nbrs nbrs' t lf freq,
  run m train responses ix nbrs (S t) lf freq = Ok (nbrs', m') -> (Z.of_nat t mod freq = 0)%Z ->
  exists w d, dm_embedding P m' = Some w /\ build (emb false d w train) (lookup_count nbrs) = Ok nbrs' /\ dm_training P m' = false.
Proof. exact (run_eval P emb L build lookup_count query bce ce opt ls). Qed.

(** ... and the training-mode one (dropout and batch statistics active) otherwise. *)
Theorem C73_training_mode_refuted : forall m m' train responses ix nbrs nbrs' t lf freq,
  run m train responses ix nbrs (S t) lf freq = Ok (nbrs', m') -> (freq <> 0)%Z -> (Z.of_nat t mod freq <> 0)%Z ->
  exists w d, dm_embedding P m' = Some w /\ build (emb true d w train) (lookup_count nbrs) = Ok nbrs' /\ dm_training P m' = true.
Proof. exact (run_train_mode P emb L build lookup_count query bce ce opt ls). Qed.

Theorem C73_missing_embedding : forall m train responses ix nbrs iters lf freq n,
  dm_embedding P m = None -> run m train responses ix nbrs iters lf freq = Err NotImplementedError /\
  update m train responses ix n = Err NotImplementedError.
Proof. exact (training_missing P emb L build lookup_count query bce ce opt ls). Qed.

(** C74: the GP layer never sees the refreshed neighbours: updating them changes neither the layer nor the output of the model, ... *)
Theorem C74_update_ignored_refuted : forall m m' train responses ix n nbrs,
  update m train responses ix n = Ok (nbrs, m') ->
  dm_embedding P m' = dm_embedding P m /\ dm_layer P m' = dm_layer P m /\
  ((forall d d' w z, emb false d w z = emb false d' w z) -> dm_training P m = false ->
   forall x, rmap fst (forward P emb ls m' x) = rmap fst (forward P emb ls m x)).
Proof. exact (update_ignored P emb L build query ls). Qed.

(** ... and, for an embedding without random or mode-dependent parts, the update frequency has no influence on the result of training. *)
Theorem C74_update_frequency_ignored_refuted : (forall b b' d d' w x, emb b d w x = emb b' d' w x) ->
  forall m train responses ix nbrs iters lf f1 f2 n1 m1 n2 m2,
  run m train responses ix nbrs iters lf f1 = Ok (n1, m1) -> run m train responses ix nbrs iters lf f2 = Ok (n2, m2) ->
  n1 = n2 /\ dm_embedding P m1 = dm_embedding P m2 /\ dm_layer P m1 = dm_layer P m2 /\
  dm_nn_indices P m1 = dm_nn_indices P m2 /\ dm_nn_targets P m1 = dm_nn_targets P m2.
Proof. exact (run_frequency P emb L build lookup_count query bce ce opt ls). Qed.

(** C75: with an exact lookup and distinct embedded points, the first refreshed neighbour of every batch point is the point itself. *)
Theorem C75_self_neighbor_refuted : forall m m' train responses ix n nbrs F N b w c wt bf,
  update m train responses ix n = Ok (nbrs, m') -> dm_embedding P m = Some wt -> take train ix = Ok bf ->
  let e := emb (dm_training P m) (dm_draws P m) wt train in
  let eb := emb (dm_training P m) (S (dm_draws P m)) wt bf in
  (forall nn, query nbrs eb n = Ok nn -> closest_rows F N b w e eb nn) ->
  rows_of b F e eb c -> (forall a, (a < b)%nat -> (c a < N)%nat) -> distinct_rows N F e -> (0 < w)%nat ->
  forall a, (a < b)%nat -> at_ (dm_nn_indices P m') [a; O] = Z.of_nat (c a).
Proof. exact (update_self_first P emb L build query). Qed.

(** C76: training changes nothing but the weights of the embedding and, in the single layer, the length scale: in particular the noise
    (documented as trainable) and every hyperparameter of a multivariate layer keep their values. *)
Theorem C76_frame : forall m m' train responses ix nbrs nbrs' iters lf freq y,
  dm_layer P m = Some y -> run m train responses ix nbrs iters lf freq = Ok (nbrs', m') ->
  match y with
  | Single y => exists y', dm_layer P m' = Some (Single y') /\ l1_gp y' = l1_gp y /\ l1_kernel y' = l1_kernel y /\ l1_bounds y' = l1_bounds y /\
      l1_indices y' = l1_indices y /\ l1_nn_indices y' = l1_nn_indices y /\ l1_targets y' = l1_targets y /\ l1_nn_targets y' = l1_nn_targets y
  | Multi y => dm_layer P m' = Some (Multi y)
  end.
Proof. exact (run_frame P emb L build lookup_count query bce ce opt ls). Qed.

(** The bounds of the length scale are not enforced: after one successful step, any value the optimizer proposes is taken. *)
Theorem C76_bounds_ignored_refuted : forall m y train responses ix nbrs lf freq nbrs' m' l,
  dm_layer P m = Some (Single y) -> run m train responses ix nbrs 1 lf freq = Ok (nbrs', m') ->
  exists m'' y'', train_deep_kernel P emb L build lookup_count query bce ce (fun i w v => (fst (opt i w v), [l])) ls
      m train responses ix nbrs 1 lf freq = Ok (nbrs', m'') /\
    dm_layer P m'' = Some (Single y'') /\ l1_length_scale y'' = l /\ l1_bounds y'' = l1_bounds y.
Proof. exact (one_step_any_length_scale P emb L build lookup_count query bce ce ls opt). Qed.

(** C77: accepted loss names. *)
Theorem C77_loss_names : forall m train responses ix nbrs iters lf freq,
  (forall r, run m train responses ix nbrs iters lf freq = Ok r -> In (lower lf) ["mse"; "bce"; "ce"; "lool"]%string) /\
  (~ In (lower lf) ["mse"; "bce"; "ce"; "lool"]%string -> (exists w, dm_embedding P m = Some w) ->
   (exists bf, take train ix = Ok bf) -> (exists br, take responses ix = Ok br) ->
   run m train responses ix nbrs iters lf freq = Err ValueError).
Proof. exact (run_names P emb L build lookup_count query bce ce opt ls). Qed.

Theorem C77_case_insensitive : forall m train responses ix nbrs iters lf lf' freq, lower lf = lower lf' ->
  run m train responses ix nbrs iters lf freq = run m train responses ix nbrs iters lf' freq.
Proof. exact (run_case P emb L build lookup_count query bce ce opt ls). Qed.

(** The documented "l1" always raises. *)
Theorem C77_l1_refuted : forall m train responses ix nbrs iters freq r,
  run m train responses ix nbrs iters "l1" freq <> Ok r.
Proof. exact (run_l1 P emb L build lookup_count query bce ce opt ls). Qed.
End Training.
Print Assumptions C73_returned_lookup.
Print Assumptions C73_evaluation_mode_partial.
Print Assumptions C73_training_mode_refuted.
Print Assumptions C73_missing_embedding.
Print Assumptions C74_update_ignored_refuted.
Print Assumptions C74_update_frequency_ignored_refuted.
Print Assumptions C75_self_neighbor_refuted.
Print Assumptions C76_frame.
Print Assumptions C76_bounds_ignored_refuted.
Print Assumptions C77_loss_names.
Print Assumptions C77_case_insensitive.
Print Assumptions C77_l1_refuted.

(** A concrete model whose training succeeds for every iteration count and update frequency; its weights and length scale move with the
    iterations, and its refreshed neighbours are not those of its layer. *)
Theorem C74_layer_differs_refuted : forall iters freq,
  exists m' y', train_deep_kernel R exd_emb (nd R) exd_build exd_count exd_query exd_loss exd_loss exd_opt gauss
      exd ex_train ex_targets (arange 3) ex_train iters "lool" freq = Ok (ex_train, m') /\
    dm_layer R m' = Some (Single y') /\ at_ (l1_nn_indices y') [0; 0]%nat <> at_ (dm_nn_indices R m') [0; 0]%nat.
Proof. exact exd_layer_differs. Qed.
Print Assumptions C74_layer_differs_refuted.

Theorem C76_out_of_bounds_refuted : exists m' y',
  train_deep_kernel R exd_emb (nd R) exd_build exd_count exd_query exd_loss exd_loss exd_opt gauss
      exd ex_train ex_targets (arange 3) ex_train 2 "lool" 1 = Ok (ex_train, m') /\
  dm_layer R m' = Some (Single y') /\ l1_bounds y' = Some (1 / 2, 2) /\ 2 < l1_length_scale y'.
Proof. exact exd_out_of_bounds. Qed.
Print Assumptions C76_out_of_bounds_refuted.

Example C73_sat : forall iters freq, exists r, train_deep_kernel R exd_emb (nd R) exd_build exd_count exd_query exd_loss exd_loss exd_opt gauss
      exd ex_train ex_targets (arange 3) ex_train iters "mse" freq = Ok r.
Proof. exact exd_run. Qed.

Example C75_sat : closest_rows 1 3 3 2 ex_train ex_train exd_nn /\ rows_of 3 1 ex_train ex_train (fun a => a) /\ distinct_rows 3 1 ex_train /\
  exists m', update_nearest_neighbors R exd_emb (nd R) exd_build exd_query exd ex_train ex_targets (arange 3) 2 = Ok (ex_train, m') /\
    dm_nn_indices R m' = exd_nn.
Proof. exact exd_self. Qed.

(** C75: a layer without noise whose neighbourhoods contain the batch points reproduces their responses exactly, so its training loss
    says nothing about its predictions. *)
Theorem C75_leak_refuted : forall ls y F k x responses N b w q c r,
  exact_solver ls -> pointwise_kernel F (l1_kernel y (l1_length_scale y)) k -> (forall d, k (fun f => - d f) = k d) ->
  shape x = [N; F] -> gp_noise (l1_gp y) = NullNoise ->
  shape responses = [N; r] -> take responses (l1_nn_indices y) = Ok (l1_nn_targets y) -> shape (gp_Kout (l1_gp y)) = [] ->
  shape (l1_indices y) = [b] -> (forall a, (a < b)%nat -> at_ (l1_indices y) [a] = Z.of_nat (c a) /\ (c a < N)%nat) ->
  index_matrix (l1_nn_indices y) b w N q -> r <> w -> (0 < w)%nat ->
  (forall a, (a < b)%nat -> nonsingular w (nbr_matrix k NullNoise x q a)) ->
  (forall a, (a < b)%nat -> q a O = c a) ->
  exists p v, layer1_forward ls y x = Ok (p, v) /\ shape p = [b; r] /\
    forall a s, (a < b)%nat -> (s < r)%nat -> at_ p [a; s] = at_ responses [c a; s].
Proof. exact layer1_leak. Qed.
Print Assumptions C75_leak_refuted.

Example C75_leak_sat : (forall d, exk (fun f => - d f) = exk d) /\ index_matrix exd_nn 3 2 3 ex_p /\ (forall a, (a < 3)%nat -> ex_p a O = a) /\
  take ex_targets exd_nn = Ok (exd_taken exd_nn) /\ (forall a, (a < 3)%nat -> nonsingular 2 (nbr_matrix exk NullNoise ex_train ex_p a)).
Proof. exact exd_leak. Qed.

(** ** C78: the leave-one-out likelihood that training differentiates: sum over batch and responses of
    (prediction - target)^2 / variance + ln variance, each prediction with its own variance *)
Theorem C78_multivariate : forall bce ce ls p t v b r, shape p = [b; r] -> shape t = [b; r] -> shape v = [b; r] ->
  deep_loss_value bce ce ls LLool p t v =
  Ok (rsum b (fun x => rsum r (fun s => (at_ p [x; s] - at_ t [x; s]) ^ 2 / at_ v [x; s] + ln (at_ v [x; s])))).
Proof. exact lool_multi. Qed.
Print Assumptions C78_multivariate.

Theorem C78_single_response : forall bce ce ls p t v b, shape p = [b; 1%nat] -> shape t = [b; 1%nat] -> shape v = [b] ->
  deep_loss_value bce ce ls LLool p t v =
  Ok (rsum b (fun x => (at_ p [x; O] - at_ t [x; O]) ^ 2 / at_ v [x] + ln (at_ v [x]))).
Proof. exact lool_value_column. Qed.
Print Assumptions C78_single_response.

(** The single layer with several responses: its one variance per batch element does not broadcast, or is applied to the wrong axis. *)
Theorem C78_several_responses_refuted : forall bce ce ls p t v b r,
  shape p = [b; r] -> shape t = [b; r] -> shape v = [b] -> (2 <= b)%nat -> (2 <= r)%nat -> b <> r ->
  deep_loss_value bce ce ls LLool p t v = Err ValueError.
Proof. exact lool_single_many. Qed.
Print Assumptions C78_several_responses_refuted.

Theorem C78_square_responses_refuted : forall bce ce ls p t v b, shape p = [b; b] -> shape t = [b; b] -> shape v = [b] -> (2 <= b)%nat ->
  deep_loss_value bce ce ls LLool p t v =
  Ok (rsum b (fun x => rsum b (fun s => (at_ p [x; s] - at_ t [x; s]) ^ 2 / at_ v [s] + ln (at_ v [s])))).
Proof. exact lool_single_square. Qed.
Print Assumptions C78_square_responses_refuted.

Theorem C78_mse : forall bce ce ls p t v b r, shape p = [b; r] -> shape t = [b; r] ->
  deep_loss_value bce ce ls LMse p t v =
  Ok (rsum b (fun x => rsum r (fun s => (at_ p [x; s] - at_ t [x; s]) ^ 2)) / INR (b * r)).
Proof. exact mse_value. Qed.
Print Assumptions C78_mse.

Example C78_sat : deep_loss_value exd_loss exd_loss gauss LLool ex_targets ex_targets (mkNd [3]%nat (fun _ => 1)) = Ok 0.
Proof. exact lool_example. Qed.
