(** C118: the orientation, handedness, origin and unit of the sky do not matter to lensing predictions. *)
From Coq Require Import Lia Lra.
From Verif Require Import Base NdModel RSum LinAlgModel LinAlgSpec Gauss GPModel NoiseModel MuyGPSModel GPSpec TensorModel TensorSpec
  HyperModel HyperSpec NamedModel NamedSpec KernelModel KernelSpec FlowSpec LossModel LossSpec ChassisModel ChassisSpec WorkSpec TrainSpec
  ShearModel ShearSpec ShearFlowSpec ShearEdge ShearTrainModel ShearTrainSpec ShearTrainProps SkySpec SkyProofs SkyProofs2 SkyProofs3.
Local Open Scope R_scope.
Local Open Scope string_scope.

(** * C118 *)
(** What a rigid motion does to second derivatives is what [turn] does to the observables, and [frame] is the matrix of [move]. *)
Theorem C118_observables : forall g, rigid g -> forall h, h 0%nat 1%nat = h 1%nat 0%nat -> forall o, (o < 3)%nat ->
  lens (fun i j => rsum 2 (fun a => rsum 2 (fun b => frame g i a * frame g j b * h a b))) o = rsum 3 (fun o' => turn g o o' * lens h o') /\
  (forall x y i, (i < 2)%nat -> move g x i - move g y i = rsum 2 (fun a => frame g i a * (x a - y a))) /\
  (forall i j, (i < 2)%nat -> (j < 2)%nat -> rsum 2 (fun a => frame g i a * frame g j a) = if (i =? j)%nat then 1 else 0).
Proof.
  intros g HR h Hs o Ho. unfold rigid in HR.
  assert (G : msign g * msign g = 1) by (unfold msign; destruct (mflip g); ring).
  assert (CS : mc g * mc g = 1 - ms g * ms g) by lra.
  split; [|split].
  - cbn [rsum]. destruct o as [|[|[|o]]]; [| | |lia]; cbn [lens frame turn].
    + rewrite Hs. transitivity ((mc g ^ 2 + ms g ^ 2) * (h 0%nat 0%nat + msign g * msign g * h 1%nat 1%nat) / 2); [field|]. rewrite HR, G. field.
    + rewrite Hs. transitivity ((mc g ^ 2 - ms g ^ 2) * (h 0%nat 0%nat - msign g * msign g * h 1%nat 1%nat) / 2 - 2 * mc g * ms g * msign g * h 1%nat 0%nat);
        [field|]. rewrite G. field.
    + rewrite Hs. transitivity (mc g * ms g * (h 0%nat 0%nat - msign g * msign g * h 1%nat 1%nat) + (mc g ^ 2 - ms g ^ 2) * msign g * h 1%nat 0%nat);
        [ring|]. rewrite G. field.
  - intros x y i Hi. cbn [rsum]. destruct i as [|[|i]]; [| |lia]; cbn [move frame]; ring.
  - intros i j Hi Hj. cbn [rsum]. destruct i as [|[|i]]; [| |lia]; (destruct j as [|[|j]]; [| |lia]); cbn [frame Nat.eqb].
    + transitivity (mc g * mc g + ms g * ms g * (msign g * msign g)); [ring|]. rewrite G, CS. ring.
    + transitivity (mc g * ms g * (1 - msign g * msign g)); [ring|]. rewrite G. ring.
    + transitivity (mc g * ms g * (1 - msign g * msign g)); [ring|]. rewrite G. ring.
    + transitivity (ms g * ms g + mc g * mc g * (msign g * msign g)); [ring|]. rewrite G, CS. ring.
Qed.
Print Assumptions C118_observables.

(** Moving every position and turning the training observables turns the predicted means and the predicted covariances, for the full and the
    shear-only model and for both noise models. *)
Theorem C118_prediction : forall ls, exact_solver ls -> forall g km sn s F test test' train train' targets targets' ix nn m n b k,
  rigid g -> shear_trainable km sn s F -> shear_inputs test train targets ix nn m n b k ->
  moved g test test' m -> moved g train train' n -> turned g targets targets' n ->
  exists mean var mean' var',
    shear_posterior ls km sn s F test train targets ix nn = Ok (mean, var) /\
    shear_posterior ls km sn s F test' train' targets' ix nn = Ok (mean', var') /\
    shape mean = [b; 3]%nat /\ shape mean' = [b; 3]%nat /\ shape var = [b; 3; 3]%nat /\ shape var' = [b; 3; 3]%nat /\
    forall x o, (x < b)%nat -> (o < 3)%nat ->
      at_ mean' [x; o] = rsum 3 (fun o' => turn g o o' * at_ mean [x; o']) /\
      forall p, (p < 3)%nat -> at_ var' [x; o; p] = rsum 3 (fun o' => rsum 3 (fun p' => turn g o o' * turn g p p' * at_ var [x; o'; p'])).
Proof. exact sky_prediction. Qed.
Print Assumptions C118_prediction.

(** The same rows are nearest neighbours. *)
Theorem C118_neighbours : forall g test test' train train' m n x k q, rigid g -> shape test = [m; 2]%nat -> shape train = [n; 2]%nat ->
  moved g test test' m -> moved g train train' n -> (x < m)%nat -> nearest_rows test train n x k q -> nearest_rows test' train' n x k q.
Proof. exact nearest_moved. Qed.
Print Assumptions C118_neighbours.

(** Training on the moved survey: at every candidate the squared-error objective has the same value, so the same parameters are found. *)
Theorem C118_training : forall ls, exact_solver ls -> forall slogdet eps g km sn s F kw draws train train' targets targets' ix nn n b k c q
    names x0 bounds t t',
  rigid g -> moved g train train' n -> turned g targets targets' n ->
  model_ok s F -> bounds_ok s F -> positive_bounds s F -> get_opt_params s (f_attr F) = Ok (names, x0, bounds) ->
  shear_trainable km sn s F -> shear_batch train targets ix nn n b k c q -> loss_kw_ok kw ->
  shear_train_tensors km None ix nn train targets = Ok t -> shear_train_tensors km None ix nn train' targets' = Ok t' ->
  forall x, in_box x bounds -> exists w,
    shear_obj_fn ls slogdet eps km sn s F Mse kw None draws t (combine names x) = Ok w /\
    shear_obj_fn ls slogdet eps km sn s F Mse kw None draws t' (combine names x) = Ok w.
Proof. exact sky_training. Qed.
Print Assumptions C118_training.

(** Units: positions multiplied by [a] and observables by [c], with length scale (the squared length) multiplied by a^2 and noise divided by
    a^4: the means are multiplied by [c], the covariances divided by a^4. *)
Theorem C118_units : forall ls, exact_solver ls -> forall km sn s F s' F' l v a c test test' train train' targets targets' ix nn m n b k,
  shear_trainable km sn s F -> shear_values s F l v -> shear_trainable km sn s' F' -> shear_values s' F' (a ^ 2 * l) (v / a ^ 4) ->
  f_var_scale F' = f_var_scale F -> a <> 0 ->
  shear_inputs test train targets ix nn m n b k -> stretched a test test' m -> stretched a train train' n ->
  shape targets' = [n; 3]%nat -> (forall i o, (i < n)%nat -> (o < 3)%nat -> at_ targets' [i; o] = c * at_ targets [i; o]) ->
  exists mean var mean' var',
    shear_posterior ls km sn s F test train targets ix nn = Ok (mean, var) /\
    shear_posterior ls km sn s' F' test' train' targets' ix nn = Ok (mean', var') /\
    shape mean = [b; 3]%nat /\ shape mean' = [b; 3]%nat /\ shape var = [b; 3; 3]%nat /\ shape var' = [b; 3; 3]%nat /\
    forall x o, (x < b)%nat -> (o < 3)%nat -> at_ mean' [x; o] = c * at_ mean [x; o] /\
      forall p, (p < 3)%nat -> at_ var' [x; o; p] = at_ var [x; o; p] / a ^ 4.
Proof. exact sky_units. Qed.
Print Assumptions C118_units.

(** A motion that turns, reflects and shifts the four points of the example survey. *)
Definition ex118 : motion := mkMotion (3/5) (4/5) true 1 2.
Definition ex118_feat : nd R := mkNd [4; 2]%nat (fun idx => match idx with [i; f] => move ex118 (feature exFeat i) f | _ => 0 end).
Definition ex118_tgt : nd R := mkNd [4; 3]%nat (fun idx => match idx with [i; o] => rsum 3 (fun o' => turn ex118 o o' * at_ exTgt [i; o']) | _ => 0 end).
Example C118_sat : rigid ex118 /\ moved ex118 exFeat ex118_feat 4 /\ turned ex118 exTgt ex118_tgt 4 /\
  shear_trainable Full33 true ex89_store ex89 /\ shear_inputs exFeat exFeat exTgt exIx exNn 4 4 4 3 /\
  (exists t, shear_train_tensors Full33 None exIx exNn exFeat exTgt = Ok t) /\
  (exists t, shear_train_tensors Full33 None exIx exNn ex118_feat ex118_tgt = Ok t) /\
  turn ex118 1 1 = - (7/25) /\ turn ex118 2 2 = 7/25.
Proof.
  destruct C89_sat as (_ & _ & _ & _ & _ & TR & _ & _ & _ & _ & _ & _ & _ & IN).
  split; [unfold rigid; cbn; field|]. split; [split; [reflexivity|intros; reflexivity]|]. split; [split; [reflexivity|intros; reflexivity]|].
  split; [exact TR|]. split; [exact IN|].
  split. { destruct (shear_train_tensors Full33 None exIx exNn exFeat exTgt) as [t|e] eqn:E; [eauto|]. exfalso. revert E.
    unfold shear_train_tensors. lazy -[INR]. discriminate. }
  split. { destruct (shear_train_tensors Full33 None exIx exNn ex118_feat ex118_tgt) as [t|e] eqn:E; [eauto|]. exfalso. revert E.
    unfold shear_train_tensors. lazy -[INR IZR Rdiv Rplus Rmult Ropp Rminus]. discriminate. }
  split; unfold turn, ex118, msign; cbn; field.
Qed.

(** Positions doubled, observables tripled: length scale 4, noise 1/32. *)
Definition ex118_store : store := mkStore 2 (fun l => match l with
  | O => mkParam (Fin (1/32)) (Fin (1/100), Fin 1) false
  | _ => mkParam (Fin 4) (Fin (1/2), Fin 8) false end).
Definition ex118_wide : nd R := mkNd [4; 2]%nat (fun idx => 2 * at_ exFeat idx).
Definition ex118_loud : nd R := mkNd [4; 3]%nat (fun idx => 3 * at_ exTgt idx).
Example C118_units_sat : shear_trainable Full33 true ex89_store ex89 /\ shear_values ex89_store ex89 1 (1/2) /\
  shear_trainable Full33 true ex118_store ex89 /\ shear_values ex118_store ex89 (2 ^ 2 * 1) (1/2 / 2 ^ 4) /\
  shear_inputs exFeat exFeat exTgt exIx exNn 4 4 4 3 /\ stretched 2 exFeat ex118_wide 4 /\
  shape ex118_loud = [4; 3]%nat /\ (forall i o, (i < 4)%nat -> (o < 3)%nat -> at_ ex118_loud [i; o] = 3 * at_ exTgt [i; o]).
Proof.
  destruct C89_sat as (_ & _ & _ & _ & _ & TR & _ & SV & _ & _ & _ & _ & _ & IN).
  assert (SV' : shear_values ex118_store ex89 (2 ^ 2 * 1) (1/2 / 2 ^ 4)).
  { exists (mkNamed "length_scale" 1), (mkNamed "noise" 0). repeat split; cbn; field. }
  split; [exact TR|]. split; [exact SV|].
  split. { split; [reflexivity|]. split; [exists (2 ^ 2 * 1), (1/2 / 2 ^ 4); split; [exact SV'|split; lra]|auto]. }
  split; [exact SV'|]. split; [exact IN|]. split; [split; [reflexivity|intros; reflexivity]|]. split; [reflexivity|]. intros; reflexivity.
Qed.
