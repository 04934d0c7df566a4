(** C125, continued: limits of multivariate predictions. *)
From Coq Require Import Lia Lra.
From Verif Require Import Base BaseFacts NdModel NdFacts RSum HyperModel NamedModel NamedSpec LinAlgModel LinAlgSpec LinAlgFacts Gauss
  GPModel NoiseModel MuyGPSModel GPSpec GPTheorems TensorModel TensorSpec KernelModel KernelSpec
  NeighborsModel NeighborsSpec NeighborsProofs BatchProofs FlowModel FlowSpec FlowProofs PointwiseSpec LibSpec LibProofs
  MultiModel DriverModel WorkModel WorkSpec WorkProofs WorkLemmas WorkProps BestSpec ColumnsProps SimplerSpec SimplerProps NativeSpec FitSpec CoincideSpec
  FarSpec MultiwiseProofs MultiwiseProps MultiLimitProofs.
Local Open Scope R_scope.

(** With noise of at least nu, every response's mean is at most n Y / nu and its variance within the factor 1 - n / nu of its prior variance;
    at a row whose distance to every training row is at least D, the bounds shrink with D. The prior variance carries the scale twice (C44). *)
Theorem C125_limits : forall gamma kv ls, exact_solver ls -> forall knn hnsw dist, sklearn_ok knn dist ->
  forall en method kw w (ms : list (gp * libkernel * (nat -> R))) test train targets F N M n r nu Y,
  regression en method kw w test train targets N M n [r] -> n <> 1%nat -> shape test = [M; F] -> shape train = [N; F] ->
  ms <> [] -> (List.length ms <= r)%nat -> (forall g K cur, In (g, K, cur) ms -> documented g K cur [] train N M n /\ 0 <= gp_scale g) ->
  0 < nu -> (forall g K cur, In (g, K, cur) ms -> noise_at_least (gp_noise g) nu M n) ->
  (forall a i, (a < N)%nat -> (i < r)%nat -> Rabs (at_ targets [a; i]) <= Y) ->
  exists mean var,
    regress_any ls knn hnsw (Multivariate (map (fun e => lib_model gamma kv (fst (fst e)) (snd (fst e)) (snd e)) ms)) test train w targets = Ok (mean, var) /\
    forall x i g K cur, (x < M)%nat -> nth_error ms i = Some (g, K, cur) ->
      let prior := gp_scale g * gp_var_scale g in
      prior * (1 - INR n / nu) <= at_ var [x; i] <= prior /\ Rabs (at_ mean [x; i]) <= INR n * Y / nu /\
      forall L D, (forall f, (f < F)%nat -> scale_of (lk_def K) cur [] f <= L) -> 0 < D -> far_from test train N x D ->
        prior * (1 - 36 * L ^ 2 * INR n / (D ^ 2 * nu)) <= at_ var [x; i] /\ Rabs (at_ mean [x; i]) <= 6 * L * INR n * Y / (D * nu).
Proof. intros gamma kv ls EX knn hnsw dist Hsk. exact (multi_limits gamma kv ls EX knn hnsw dist Hsk). Qed.
Print Assumptions C125_limits.

(** The case of C125_sat: noise 1/10, responses at most 4; its test row 0 is at distance 1 or more from the training rows. *)
Example C125_limits_sat : exists knn dist w, sklearn_ok knn dist /\
  regression false "exact" [] w ex114_test ex99_train ex125_targets 3 2 3 [2]%nat /\
  (forall g K cur, In (g, K, cur) ex125_models -> documented g K cur [] ex99_train 3 2 3 /\ 0 <= gp_scale g) /\
  (forall g K cur, In (g, K, cur) ex125_models -> noise_at_least (gp_noise g) (1/10) 2 3) /\
  (forall a i, (a < 3)%nat -> (i < 2)%nat -> Rabs (at_ ex125_targets [a; i]) <= 4) /\
  far_from ex114_test ex99_train 3 0 1.
Proof.
  destruct C125_sat as (knn & dist & w & SK & RG & _ & _ & _ & DOC).
  exists knn, dist, w. split; [exact SK|]. split; [exact RG|]. split; [exact DOC|]. split.
  { intros g K cur [E|[E|[]]]; injection E as <- _ _; intros x i _ _; cbn; lra. }
  split.
  { intros a i Ha Hi. cbn [at_ ex125_targets]. rewrite Rabs_pos_eq by apply pos_INR. replace 4 with (INR 4) by (cbn; ring). apply le_INR. lia. }
  intros a Ha. unfold euclid, sqdist, feature_count, feature. rewrite <- sqrt_1 at 1. apply sqrt_le_1_alt.
  destruct a as [|[|[|a]]]; [| | |lia]; cbn; lra.
Qed.
