(** C104 and C105 for shear models: predictions are continuous in everything but the neighbour lists; the training objective is continuous on the box of bounds and has a best point there. *)
From Coq Require Import Lia Lra.
From Verif Require Import Base NdModel RSum LinAlgModel LinAlgSpec Gauss GPModel NoiseModel MuyGPSModel GPSpec TensorModel TensorSpec
  HyperModel HyperSpec NamedModel NamedSpec KernelModel KernelSpec FlowSpec LossModel LossSpec ChassisModel ChassisSpec ChassisProofs WorkSpec WorkProofs TrainSpec TrainProofs TrainProofs2 ContSpec
  ShearModel ShearSpec ShearFlowSpec ShearEdge ShearTrainModel ShearTrainSpec ShearTrainProofs2 ShearTrainProps ShearContSpec ShearContProofs ShearContProofs2.
Local Open Scope R_scope.
Local Open Scope string_scope.

(** Mean squared error and pseudo-Huber objectives of a shear model with an RBF length scale and a homoscedastic or ShearNoise33 noise. *)
Theorem C105_shear_objective_continuous : forall ls, exact_solver ls -> forall sld eps0 km sn s F l kw mask outs draws train targets ix nn n b k c q
    names x0 bounds,
  model_ok s F -> bounds_ok s F -> positive_bounds s F -> get_opt_params s (f_attr F) = Ok (names, x0, bounds) ->
  shear_trainable km sn s F -> shear_batch train targets ix nn n b k c q -> scored mask outs -> loss_kw_ok kw ->
  l = Mse \/ l = PseudoHuber ->
  forall t, shear_train_tensors km mask ix nn train targets = Ok t ->
  let obj := shear_obj_fn ls sld eps0 km sn s F l kw mask draws t in
  forall x, in_box x bounds -> forall eps, 0 < eps -> exists d, 0 < d /\ forall y, in_box y bounds -> point_close x y d ->
    exists vx vy, obj (combine names x) = Ok vx /\ obj (combine names y) = Ok vy /\ Rabs (vy - vx) < eps.
Proof. intros. eapply shear_cont; eauto. Qed.
Print Assumptions C105_shear_objective_continuous.

(** With finite bounds there is a shear model within the bounds whose leave-one-out value is at least that of every other one. *)
Theorem C105_shear_best_exists : forall ls, exact_solver ls -> forall sld eps0 km sn s F l kw mask outs draws train targets ix nn n b k c q
    names x0 bounds,
  model_ok s F -> bounds_ok s F -> positive_bounds s F -> get_opt_params s (f_attr F) = Ok (names, x0, bounds) ->
  shear_trainable km sn s F -> shear_batch train targets ix nn n b k c q -> scored mask outs -> loss_kw_ok kw ->
  l = Mse \/ l = PseudoHuber -> finite_bounds bounds ->
  exists t, shear_train_tensors km mask ix nn train targets = Ok t /\
  let obj := shear_obj_fn ls sld eps0 km sn s F l kw mask draws t in
  exists x s' F' v, in_box x bounds /\ obj (combine names x) = Ok v /\
    new_muygps s F names bounds (combine names (map Fin x)) = Ok (s', F') /\
    shear_loo_value km sn s' F' l kw outs train targets b k c q v /\
    forall y, in_box y bounds -> exists s'' F'' w, obj (combine names y) = Ok w /\
      new_muygps s F names bounds (combine names (map Fin y)) = Ok (s'', F'') /\
      shear_loo_value km sn s'' F'' l kw outs train targets b k c q w /\ w <= v.
Proof.
  intros ls EX sld eps0 km sn s F l kw mask outs draws train targets ix nn n b k c q names x0 bounds MO BO PB EO TR BK SC KW HL FB.
  destruct (C89_objective_partial ls EX sld eps0 km sn s F l kw mask outs draws train targets ix nn n b k c q names x0 bounds
    MO BO PB EO TR BK SC KW HL) as (t & ET & CV).
  exists t. split; [exact ET|]. intros obj.
  destruct (shear_max ls EX sld eps0 km sn s F l kw mask outs draws train targets ix nn n b k c q names x0 bounds MO BO PB EO TR BK SC KW HL t ET FB)
    as (x & v & BX & Ex & MX).
  destruct (CV x BX) as (s' & F' & v' & E & _ & OB & LV). fold obj in OB, Ex. rewrite Ex in OB. injection OB as <-.
  exists x, s', F', v. split; [exact BX|]. split; [exact Ex|]. split; [exact E|]. split; [exact LV|]. intros y BY.
  destruct (CV y BY) as (s'' & F'' & w & E' & _ & OB' & LV'). destruct (MX y BY) as (w' & Ew & L). fold obj in OB', Ew. rewrite OB' in Ew. injection Ew as <-.
  exists s'', F'', w. auto.
Qed.
Print Assumptions C105_shear_best_exists.

(** An optimizer that finds it makes shear training return the best model within the bounds. *)
Theorem C105_shear_best_is_returned : forall ls, exact_solver ls -> forall sld eps0 km sn s F l kw mask outs draws train targets ix nn n b k c q
    names x0 bounds,
  model_ok s F -> bounds_ok s F -> positive_bounds s F -> get_opt_params s (f_attr F) = Ok (names, x0, bounds) ->
  shear_trainable km sn s F -> shear_batch train targets ix nn n b k c q -> scored mask outs -> loss_kw_ok kw ->
  l = Mse \/ l = PseudoHuber -> finite_bounds bounds ->
  exists minimize s' F' v,
    shear_optimize ls sld eps0 (scipy_optimize minimize) km sn s F l kw mask draws ix nn train targets = Ok (s', F') /\
    shear_loo_value km sn s' F' l kw outs train targets b k c q v /\
    forall y, in_box y bounds -> exists s'' F'' w,
      new_muygps s F names bounds (combine names (map Fin y)) = Ok (s'', F'') /\
      shear_loo_value km sn s'' F'' l kw outs train targets b k c q w /\ w <= v.
Proof.
  intros ls EX sld eps0 km sn s F l kw mask outs draws train targets ix nn n b k c q names x0 bounds MO BO PB EO TR BK SC KW HL FB.
  destruct (C105_shear_best_exists ls EX sld eps0 km sn s F l kw mask outs draws train targets ix nn n b k c q names x0 bounds
    MO BO PB EO TR BK SC KW HL FB) as (t & ET & x & s' & F' & v & BX & Ex & E & LV & MX).
  exists (fun _ _ _ => Ok (map Fin x)), s', F', v. split; [|split; [exact LV|]].
  - unfold shear_optimize, scipy_optimize. rewrite ET. cbn [bind]. rewrite EO. cbn [bind].
    rewrite map_length, (in_box_length _ _ BX), (names_bounds_length s F names x0 bounds MO EO), Nat.ltb_irrefl. exact E.
  - intros y BY. destruct (MX y BY) as (s'' & F'' & w & _ & H). eauto.
Qed.
Print Assumptions C105_shear_best_is_returned.

(** The model, the data and the batch of C89_sat (length scale in [1/2, 2], noise in [1/10, 1]): its bounds are finite. *)
Example C105_shear_sat : exists names x0 bounds, exact_solver gauss /\ model_ok ex89_store ex89 /\ bounds_ok ex89_store ex89 /\ positive_bounds ex89_store ex89 /\
  get_opt_params ex89_store (f_attr ex89) = Ok (names, x0, bounds) /\
  shear_trainable Full33 true ex89_store ex89 /\ shear_trainable Two23 false ex89_store ex89 /\
  shear_batch exFeat exTgt exIx exNn 4 4 3 (fun x => x) (fun _ i => i) /\
  scored None [0; 1; 2]%nat /\ scored (Some [1; 2]%nat) [1; 2]%nat /\ loss_kw_ok [] /\ finite_bounds bounds.
Proof.
  destruct C89_sat as (H1 & H2 & H3 & H4 & H5 & H6 & H7 & _ & H9 & H10 & H11 & H12 & _).
  eexists _, _, _. split; [exact H1|]. split; [exact H2|]. split; [exact H3|]. split; [exact H4|]. split; [exact H5|]. split; [exact H6|].
  split; [exact H7|]. split; [exact H9|]. split; [exact H10|]. split; [exact H11|]. split; [exact H12|].
  constructor; [exists (1/2), 2; reflexivity|]. constructor; [exists (1/10), 1; reflexivity|constructor].
Qed.

(** * C104 *)
(** With fixed neighbour lists the lensing predictions and their covariances depend jointly continuously on the length scale, the noise, the
    variance scale, the positions of the test points and of the training points, and the observations. *)
Theorem C104_shear_continuous : forall ls, exact_solver ls -> forall km sn ix nn m n b k s F l v test train targets,
  shear_trainable km sn s F -> shear_values s F l v -> shear_inputs test train targets ix nn m n b k ->
  forall eps, 0 < eps -> exists d, 0 < d /\ forall s' F' l' v' test' train' targets',
    shear_trainable km sn s' F' -> shear_values s' F' l' v' -> shear_inputs test' train' targets' ix nn m n b k ->
    Rabs (l' - l) < d -> Rabs (v' - v) < d -> Rabs (f_var_scale F' - f_var_scale F) < d ->
    tables_close m 2 test test' d -> tables_close n 2 train train' d -> tables_close n 3 targets targets' d ->
    exists mean var mean' var', shear_posterior ls km sn s F test train targets ix nn = Ok (mean, var) /\
      shear_posterior ls km sn s' F' test' train' targets' ix nn = Ok (mean', var') /\
      forall x o, (x < b)%nat -> (o < 3)%nat -> Rabs (at_ mean' [x; o] - at_ mean [x; o]) < eps /\
        forall o', (o' < 3)%nat -> Rabs (at_ var' [x; o; o'] - at_ var [x; o; o']) < eps.
Proof. exact shear_continuous. Qed.
Print Assumptions C104_shear_continuous.

(** The survey of C89_sat, and one with all numbers moved by half of any [d] below 1. *)
Definition exMove (d : R) (A : nd R) : nd R := mkNd (shape A) (fun idx => at_ A idx + d / 2).
Definition exStoreMove (d : R) : store := mkStore 2 (fun l => match l with
  | O => mkParam (Fin (1/2 + d / 2)) (Fin (1/10), Fin 1) false
  | _ => mkParam (Fin (1 + d / 2)) (Fin (1/2), Fin 2) false end).
Definition ex89_move (d : R) : full := mkFull ex89_model ex89_model F2 (mkNd [] (fun _ => 0)) FixedScale 1 (1 + d / 2).
Example C104_shear_sat : exact_solver gauss /\ shear_trainable Full33 true ex89_store ex89 /\ shear_values ex89_store ex89 1 (1/2) /\
  shear_inputs exFeat exFeat exTgt exIx exNn 4 4 4 3 /\ forall d, 0 < d < 1 ->
  shear_trainable Full33 true (exStoreMove d) (ex89_move d) /\ shear_values (exStoreMove d) (ex89_move d) (1 + d / 2) (1/2 + d / 2) /\
  shear_inputs (exMove d exFeat) (exMove d exFeat) (exMove d exTgt) exIx exNn 4 4 4 3 /\
  Rabs (1 + d / 2 - 1) < d /\ Rabs (1/2 + d / 2 - 1/2) < d /\ Rabs (f_var_scale (ex89_move d) - f_var_scale ex89) < d /\
  tables_close 4 2 exFeat (exMove d exFeat) d /\ tables_close 4 3 exTgt (exMove d exTgt) d.
Proof.
  destruct C89_sat as (EX & _ & _ & _ & _ & T1 & _ & SV & _ & _ & _ & _ & _ & IN).
  split; [exact EX|]. split; [exact T1|]. split; [exact SV|]. split; [exact IN|]. intros d [D D1].
  assert (SV' : shear_values (exStoreMove d) (ex89_move d) (1 + d / 2) (1/2 + d / 2)).
  { exists (mkNamed "length_scale" 1), (mkNamed "noise" 0). auto. }
  assert (TC : forall n c A, tables_close n c A (exMove d A) d) by (intros n c A i f _ _; cbn; apply Rabs_def1; lra).
  split. { split; [reflexivity|]. split; [exists (1 + d / 2), (1/2 + d / 2); split; [exact SV'|lra]|auto]. }
  split; [exact SV'|]. split. { destruct IN. constructor; auto. }
  split; [apply Rabs_def1; lra|]. split; [apply Rabs_def1; lra|]. split; [cbn; apply Rabs_def1; lra|]. auto.
Qed.
