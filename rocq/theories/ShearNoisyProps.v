(** C124 for the weak-lensing models: predictions under large noise, and at observed points. *)
From Coq Require Import Lia Lra.
From Verif Require Import Base BaseFacts NdModel NdFacts RSum LinAlgModel LinAlgSpec Gauss MuyGPSModel TensorModel TensorSpec HyperModel HyperSpec NamedModel NamedSpec
  KernelSpec FlowSpec LossSpec ChassisModel TrainSpec FarSpec ShearModel ShearSpec ShearFlowSpec ShearTrainModel ShearTrainSpec ShearPsd ShearProofs
  ShearBestSpec ShearEdge ShearTrainProps ShearFarProofs2 ShearFarProps.
Local Open Scope R_scope.

(** Predictions of the three observables from observations bounded by [Y], with noise variance [v]: the means are within [N h Y / v] of zero
    and the covariances within [N h^2 / v] of the prior ones, where [N] counts the observations and [h = 2 / l^2] is the largest prior variance. *)
Theorem C124_shear_noisy : forall ls, exact_solver ls -> forall km sn s F l v test train targets ix nn m n b k Y,
  shear_trainable km sn s F -> shear_values s F l v -> shear_inputs test train targets ix nn m n b k -> 0 <= f_var_scale F ->
  (forall i o, (i < n)%nat -> (o < 3)%nat -> Rabs (at_ targets [i; o]) <= Y) ->
  exists mean var, shear_posterior ls km sn s F test train targets ix nn = Ok (mean, var) /\
    forall x r, (x < b)%nat -> selects m (at_ ix [x]) r ->
      let N := INR (observed km * k) in let h := 2 / l ^ 2 in
      forall o, (o < 3)%nat -> Rabs (at_ mean [x; o]) <= N * h * Y / v /\
        forall o', (o' < 3)%nat ->
          Rabs (at_ var [x; o; o'] - f_var_scale F * shear_cov l (obs o) (obs o') (feature test r) (feature test r)) <= f_var_scale F * (N * h ^ 2 / v).
Proof. exact shear_noisy. Qed.
Print Assumptions C124_shear_noisy.

(** At a test point where observable [o] was measured (it coincides with neighbour [i]), the predicted variance of [o] never exceeds the scale
    times the noise variance of that measurement. *)
Theorem C124_shear_observed : forall ls, exact_solver ls -> forall km sn s F l v test train targets ix nn m n b k,
  shear_trainable km sn s F -> shear_values s F l v -> shear_inputs test train targets ix nn m n b k -> 0 <= f_var_scale F ->
  exists mean var, shear_posterior ls km sn s F test train targets ix nn = Ok (mean, var) /\
    forall x r i a o, (x < b)%nat -> selects m (at_ ix [x]) r -> (i < k)%nat -> selects n (at_ nn [x; i]) a ->
      (forall f, (f < 2)%nat -> feature test r f = feature train a f) -> (unobserved km <= o < 3)%nat ->
      at_ var [x; o; o] <= f_var_scale F * lens_noise sn v o.
Proof. exact observed_point. Qed.
Print Assumptions C124_shear_observed.

(** The survey of C89_sat: test point 1 is training point 1, which is its own neighbour 1. *)
Example C124_shear_sat : exact_solver gauss /\ shear_trainable Full33 true ex89_store ex89 /\ shear_values ex89_store ex89 1 (1/2) /\
  0 <= f_var_scale ex89 /\ shear_inputs exFeat exFeat exTgt exIx exNn 4 4 4 3 /\
  (exists Y, forall i o, (i < 4)%nat -> (o < 3)%nat -> Rabs (at_ exTgt [i; o]) <= Y) /\
  selects 4 (at_ exIx [1%nat]) 1 /\ selects 4 (at_ exNn [1%nat; 1%nat]) 1 /\ (unobserved Full33 <= 0 < 3)%nat.
Proof.
  destruct C89_sat as (EX & _ & _ & _ & _ & T1 & _ & SV & _ & _ & _ & _ & _ & IN).
  destruct C101_shear_sat as (_ & _ & _ & SC & YB & _).
  split; [exact EX|]. split; [exact T1|]. split; [exact SV|]. split; [exact SC|]. split; [destruct IN; constructor; auto|]. split; [exact YB|].
  split; [|split; [|cbn; lia]]; (split; [lia|left; reflexivity]).
Qed.
