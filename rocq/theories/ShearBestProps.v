(** Property theorems C122: lensing predictions are best linear predictions. *)
From Coq Require Import Lia Lra.
From Verif Require Import Base NdModel RSum LinAlgModel LinAlgSpec Gauss GPModel NoiseModel MuyGPSModel GPSpec TensorModel TensorSpec
  HyperModel HyperSpec NamedModel NamedSpec KernelModel KernelSpec FlowSpec LossModel LossSpec ChassisModel ChassisSpec WorkSpec TrainSpec
  ShearModel ShearSpec ShearFlowSpec ShearEdge ShearTrainModel ShearTrainSpec ShearTrainProps BestSpec ShearBestSpec ShearBestProofs
  ShearBestProofs2 ShearBestProofs3.
Local Open Scope R_scope.
Local Open Scope string_scope.

(** * C122 *)
(** Every predicted observable is a linear combination of all observations at the neighbours, with weights that do not depend on the
    responses; no other weights have as small an error variance, and the reported variance is that error variance times the scale. *)
Theorem C122_best_linear : forall ls, exact_solver ls -> forall km sn s F l v test train ix nn m n b k r rows,
  shear_trainable km sn s F -> shear_values s F l v ->
  (forall x, (x < b)%nat -> selects m (at_ ix [x]) (r x)) ->
  (forall x i, (x < b)%nat -> (i < k)%nat -> selects n (at_ nn [x; i]) (rows x i)) ->
  exists u, forall targets, shear_inputs test train targets ix nn m n b k ->
  exists mean var, shear_posterior ls km sn s F test train targets ix nn = Ok (mean, var) /\
    forall x o, (x < b)%nat -> (o < 3)%nat ->
      at_ mean [x; o] = over km k (fun a i => u x o a i * at_ targets [rows x i; a]) /\
      (let error := lens_error km sn l v train k (rows x) (feature test (r x)) o in
       at_ var [x; o; o] = f_var_scale F * error (u x o) /\
       forall w, error (u x o) <= error w /\
         (error w = error (u x o) -> forall a i, (unobserved km <= a < 3)%nat -> (i < k)%nat -> w a i = u x o a i)).
Proof. exact shear_best. Qed.
Print Assumptions C122_best_linear.

(** In any probability space: if the observables at a test point and the observations at its neighbours have the second moments the model
    assigns, the reported covariance matrix is that of the errors of the reported predictors, and no linear predictor has a smaller mean
    squared error. *)
Theorem C122_mean_squared_error : forall ls, exact_solver ls -> forall km sn s F l v test train ix nn m n b k r rows,
  shear_trainable km sn s F -> shear_values s F l v ->
  (forall x, (x < b)%nat -> selects m (at_ ix [x]) (r x)) ->
  (forall x i, (x < b)%nat -> (i < k)%nat -> selects n (at_ nn [x; i]) (rows x i)) ->
  exists u, forall targets, shear_inputs test train targets ix nn m n b k ->
  exists mean var, shear_posterior ls km sn s F test train targets ix nn = Ok (mean, var) /\
    forall x, (x < b)%nat ->
      (forall o, (o < 3)%nat -> at_ mean [x; o] = over km k (fun a i => u x o a i * at_ targets [rows x i; a])) /\
      forall outcomes pi f y, lens_moments outcomes pi f y km sn l v (f_var_scale F) train k (rows x) (feature test (r x)) ->
      forall o, (o < 3)%nat ->
        (forall o', (o' < 3)%nat -> at_ var [x; o; o'] =
           expect outcomes pi (fun s => lens_miss km k (f o) y (u x o) s * lens_miss km k (f o') y (u x o') s)) /\
        forall w, expect outcomes pi (fun s => lens_miss km k (f o) y (u x o) s ^ 2) <= expect outcomes pi (fun s => lens_miss km k (f o) y w s ^ 2).
Proof. exact shear_mse. Qed.
Print Assumptions C122_mean_squared_error.

(** Such random variables exist for every model, list of neighbours and test point. *)
Theorem C122_moments_exist : forall km sn l v sc train k rows point,
  (0 < k)%nat -> 0 < l -> 0 < v -> (sn = true -> km = Full33) -> 0 <= sc ->
  exists outcomes pi f y, lens_moments outcomes pi f y km sn l v sc train k rows point.
Proof. exact lens_moments_exist. Qed.
Print Assumptions C122_moments_exist.

(** The predicted covariance matrix of the three observables is symmetric and positive definite, and no combination of the observables is
    more uncertain after the observations than before. *)
Theorem C122_covariance : forall ls, exact_solver ls -> forall km sn s F l v test train targets ix nn m n b k,
  shear_trainable km sn s F -> shear_values s F l v -> shear_inputs test train targets ix nn m n b k -> 0 < f_var_scale F ->
  exists mean var, shear_posterior ls km sn s F test train targets ix nn = Ok (mean, var) /\
    forall x r, (x < b)%nat -> selects m (at_ ix [x]) r ->
      (forall o o', (o < 3)%nat -> (o' < 3)%nat -> at_ var [x; o; o'] = at_ var [x; o'; o]) /\
      (forall t, (exists o, (o < 3)%nat /\ t o <> 0) -> 0 < rsum 3 (fun o => rsum 3 (fun o' => t o * at_ var [x; o; o'] * t o'))) /\
      (forall t, rsum 3 (fun o => rsum 3 (fun o' => t o * at_ var [x; o; o'] * t o')) <=
         f_var_scale F * rsum 3 (fun o => rsum 3 (fun o' => t o * shear_cov l (obs o) (obs o') (feature test r) (feature test r) * t o'))).
Proof. exact posterior_covariance. Qed.
Print Assumptions C122_covariance.

(** More neighbours, or observing the convergence too, never make a prediction less certain. *)
Theorem C122_more_observations : forall ls, exact_solver ls ->
  forall km km' sn sn' s s' F F' l v test train targets ix nn nn' m n b k k' rows rows',
  shear_trainable km sn s F -> shear_values s F l v -> shear_inputs test train targets ix nn m n b k ->
  shear_trainable km' sn' s' F' -> shear_values s' F' l v -> shear_inputs test train targets ix nn' m n b k' ->
  f_var_scale F' = f_var_scale F -> 0 <= f_var_scale F ->
  (km' = km /\ sn' = sn) \/ (km = Two23 /\ km' = Full33) ->
  (forall x i, (x < b)%nat -> (i < k)%nat -> selects n (at_ nn [x; i]) (rows x i)) ->
  (forall x i, (x < b)%nat -> (i < k')%nat -> selects n (at_ nn' [x; i]) (rows' x i)) ->
  (forall x, (x < b)%nat -> among k (rows x) k' (rows' x)) ->
  exists mean var mean' var', shear_posterior ls km sn s F test train targets ix nn = Ok (mean, var) /\
    shear_posterior ls km' sn' s' F' test train targets ix nn' = Ok (mean', var') /\
    forall x o, (x < b)%nat -> (o < 3)%nat -> at_ var' [x; o; o] <= at_ var [x; o; o].
Proof. exact more_observations. Qed.
Print Assumptions C122_more_observations.

(** More noise never makes a prediction more certain; in particular, ShearNoise33 is never more certain than homoscedastic noise. *)
Theorem C122_more_noise : forall ls, exact_solver ls -> forall km sn sn' s s' F F' l v v' test train targets ix nn m n b k,
  shear_trainable km sn s F -> shear_values s F l v -> shear_inputs test train targets ix nn m n b k ->
  shear_trainable km sn' s' F' -> shear_values s' F' l v' ->
  f_var_scale F' = f_var_scale F -> 0 <= f_var_scale F ->
  (forall a, (a < 3)%nat -> lens_noise sn v a <= lens_noise sn' v' a) ->
  exists mean var mean' var', shear_posterior ls km sn s F test train targets ix nn = Ok (mean, var) /\
    shear_posterior ls km sn' s' F' test train targets ix nn = Ok (mean', var') /\
    forall x o, (x < b)%nat -> (o < 3)%nat -> at_ var [x; o; o] <= at_ var' [x; o; o].
Proof. exact more_noise. Qed.
Print Assumptions C122_more_noise.

(** Superposition: the predictions from a combination of two surveys' observables are the combination of the predictions, and the
    covariances do not depend on the observables. *)
Theorem C122_superposition : forall ls, exact_solver ls -> forall km sn s F l v test train t1 t2 t3 c1 c2 ix nn m n b k,
  shear_trainable km sn s F -> shear_values s F l v -> shear_inputs test train t1 ix nn m n b k ->
  shape t2 = [n; 3]%nat -> shape t3 = [n; 3]%nat ->
  (forall i o, (i < n)%nat -> (o < 3)%nat -> at_ t3 [i; o] = c1 * at_ t1 [i; o] + c2 * at_ t2 [i; o]) ->
  exists mean1 mean2 mean3 var1 var2 var3, shear_posterior ls km sn s F test train t1 ix nn = Ok (mean1, var1) /\
    shear_posterior ls km sn s F test train t2 ix nn = Ok (mean2, var2) /\ shear_posterior ls km sn s F test train t3 ix nn = Ok (mean3, var3) /\
    forall x o, (x < b)%nat -> (o < 3)%nat -> at_ mean3 [x; o] = c1 * at_ mean1 [x; o] + c2 * at_ mean2 [x; o] /\
      forall o', (o' < 3)%nat -> at_ var2 [x; o; o'] = at_ var1 [x; o; o'] /\ at_ var3 [x; o; o'] = at_ var1 [x; o; o'].
Proof. exact superposition. Qed.
Print Assumptions C122_superposition.

(** Two neighbours of the example survey, the shears only, against three neighbours and all observables. *)
Definition exNn2 : nd Z := mkNd [4; 2]%nat (fun idx => match idx with [_; i] => Z.of_nat (i + 1) | _ => 0%Z end).
Definition exTgt2 : nd R := mkNd [4; 3]%nat (fun idx => match idx with [r; c] => INR (r * c) | _ => 0 end).
Example C122_sat : exact_solver gauss /\ shear_trainable Full33 true ex89_store ex89 /\ shear_trainable Full33 false ex89_store ex89 /\
  shear_trainable Two23 false ex89_store ex89 /\
  shear_values ex89_store ex89 1 (1/2) /\ 0 < f_var_scale ex89 /\
  shear_inputs exFeat exFeat exTgt exIx exNn 4 4 4 3 /\ shear_inputs exFeat exFeat exTgt exIx exNn2 4 4 4 2 /\ shape exTgt2 = [4; 3]%nat /\
  (forall x, (x < 4)%nat -> selects 4 (at_ exIx [x]) x) /\
  (forall x i, (x < 4)%nat -> (i < 3)%nat -> selects 4 (at_ exNn [x; i]) i) /\
  (forall x i, (x < 4)%nat -> (i < 2)%nat -> selects 4 (at_ exNn2 [x; i]) (i + 1)%nat) /\
  among 2 (fun i => i + 1)%nat 3 (fun i => i) /\
  (forall a, (a < 3)%nat -> lens_noise false (1/2) a <= lens_noise true (1/2) a) /\
  (exists o, (o < 3)%nat /\ (fun o => INR o) o <> 0).
Proof.
  destruct C89_sat as (EX & _ & _ & _ & _ & T1 & T2 & SV & _ & _ & _ & _ & _ & IN).
  split; [exact EX|]. split; [exact T1|]. split.
  { destruct T1 as (B & V & _). split; [exact B|]. split; [exact V|discriminate]. }
  split; [exact T2|]. split; [exact SV|]. split; [cbn; lra|]. split; [exact IN|]. split.
  { constructor; auto; cbn; unfold out_of_range; intros; try lia. }
  split; [reflexivity|]. split; [intros x Hx; split; [exact Hx|left; reflexivity]|].
  split; [intros x i Hx Hi; split; [lia|left; reflexivity]|]. split; [intros x i Hx Hi; split; [lia|left; reflexivity]|].
  split. { exists (fun i => i + 1)%nat. split; [intros i Hi; split; [lia|reflexivity]|intros; lia]. }
  split. { intros a Ha. unfold lens_noise. destruct a; lra. }
  exists 1%nat. split; [lia|]. cbn. lra.
Qed.
