(** Training shear models (C89). *)
From Coq Require Import Lia Lra.
From Verif Require Import Base NdModel RSum LinAlgModel LinAlgSpec Gauss GPModel NoiseModel MuyGPSModel GPSpec TensorModel TensorSpec
  HyperModel HyperSpec NamedModel NamedSpec KernelModel KernelSpec FlowSpec LossModel LossSpec ChassisModel ChassisSpec WorkSpec TrainSpec
  ShearModel ShearSpec ShearFlowSpec ShearEdge ShearTrainModel ShearTrainSpec ShearTrainProofs ShearTrainProofs2.
Local Open Scope R_scope.
Local Open Scope string_scope.

(** * C89 *)
(** At every point of the box of bounds the objective is minus the loss of the leave-one-out co-kriging predictions, over the observables of
    the target mask, of the model that the optimizer would return for that point; it never fails. *)
Theorem C89_objective_partial : forall ls, exact_solver ls -> forall sld eps km sn s F l kw mask outs draws train targets ix nn n b k c q
    names x0 bounds,
  model_ok s F -> bounds_ok s F -> positive_bounds s F -> get_opt_params s (f_attr F) = Ok (names, x0, bounds) ->
  shear_trainable km sn s F -> shear_batch train targets ix nn n b k c q -> scored mask outs -> loss_kw_ok kw ->
  l = Mse \/ l = PseudoHuber ->
  exists t, shear_train_tensors km mask ix nn train targets = Ok t /\
  forall x, in_box x bounds -> exists s' F' w,
    new_muygps s F names bounds (combine names (map Fin x)) = Ok (s', F') /\
    optimized_model s F (combine names (map Fin x)) s' F' /\
    shear_obj_fn ls sld eps km sn s F l kw mask draws t (combine names x) = Ok w /\
    shear_loo_value km sn s' F' l kw outs train targets b k c q w.
Proof.
  intros ls EX sld eps km sn s F l kw mask outs draws train targets ix nn n b k c q names x0 bounds MO BO PB EO TR BK SC KW HL.
  destruct (train_tensors_split km mask ix nn train targets n b k c q BK outs SC) as (t & Et & _). exists t. split; [exact Et|].
  intros x BX. destruct (shear_candidate_value km sn s F names x0 bounds MO BO PB EO TR ls EX sld eps l kw mask outs draws train targets
    ix nn n b k c q BK SC KW HL t Et x BX) as (s' & F' & w & E & O & V & LV & _). exists s', F', w. auto.
Qed.
Print Assumptions C89_objective_partial.

(** Training returns a new model holding the best parameters tried, ... *)
Theorem C89_training_partial : forall ls, exact_solver ls -> forall sld eps km sn s F l kw mask outs draws train targets ix nn n b k c q
    names x0 bounds opt tried,
  model_ok s F -> bounds_ok s F -> positive_bounds s F -> get_opt_params s (f_attr F) = Ok (names, x0, bounds) ->
  shear_trainable km sn s F -> shear_batch train targets ix nn n b k c q -> scored mask outs -> loss_kw_ok kw ->
  l = Mse \/ l = PseudoHuber -> returns_best opt s F names bounds tried ->
  exists t x s' F' w, shear_train_tensors km mask ix nn train targets = Ok t /\ in_box x bounds /\
    shear_optimize ls sld eps opt km sn s F l kw mask draws ix nn train targets = Ok (s', F') /\
    optimized_model s F (combine names (map Fin x)) s' F' /\
    shear_loo_value km sn s' F' l kw outs train targets b k c q w /\ shear_trainable km sn s' F' /\
    forall y, tried (shear_obj_fn ls sld eps km sn s F l kw mask draws t) y -> in_box y bounds -> exists s'' F'' w',
      new_muygps s F names bounds (combine names (map Fin y)) = Ok (s'', F'') /\
      shear_loo_value km sn s'' F'' l kw outs train targets b k c q w' /\ w' <= w.
Proof. intros. eapply shear_train_best; eauto. Qed.
Print Assumptions C89_training_partial.

(** ... and a (trained) model predicts every observable by co-kriging with its own stored length scale, noise and scale; its prior covariance
    follows the trained length scale. *)
Theorem C89_prediction : forall ls, exact_solver ls -> forall km sn s F l v test train targets ix nn m n b k,
  shear_trainable km sn s F -> shear_values s F l v -> shear_inputs test train targets ix nn m n b k ->
  exists mean var, shear_posterior ls km sn s F test train targets ix nn = Ok (mean, var) /\
    shape mean = [b; 3]%nat /\ shape var = [b; 3; 3]%nat /\
    forall x r rows o, (x < b)%nat -> (o < 3)%nat -> selects m (at_ ix [x]) r ->
      (forall i, (i < k)%nat -> selects n (at_ nn [x; i]) (rows i)) ->
      cokriging km sn l v train targets k rows (feature test r) o (at_ mean [x; o]) /\
      cokriging_covariance km sn l v (f_var_scale F) train k rows (feature test r) o (fun o' => at_ var [x; o; o']).
Proof. exact shear_posterior_ok. Qed.
Print Assumptions C89_prediction.

(** A batch with as many rows as neighbours cannot be trained on: the objective raises at every candidate, for every loss. *)
Theorem C89_square_batch_refuted : forall ls sld eps km sn s F l kw mask draws train targets ix nn n k t nl nv cand,
  (sn = true -> km = Full33) -> m_kernel (f_bound F) = KRbf (LSScalar nl) -> m_noise (f_bound F) = NHomo nv ->
  0 < kw_or cand "length_scale" (reals s (nm_loc nl)) ->
  (2 <= k)%nat -> k <> observed km -> shape train = [n; 2]%nat -> shape targets = [n; 3]%nat -> shape ix = [k] -> shape nn = [k; k] ->
  (forall x, (x < k)%nat -> ~ out_of_range n (at_ ix [x])) ->
  (forall x i, (x < k)%nat -> (i < k)%nat -> ~ out_of_range n (at_ nn [x; i])) ->
  shear_train_tensors km mask ix nn train targets = Ok t ->
  exists e, shear_obj_fn ls sld eps km sn s F l kw mask draws t cand = Err e.
Proof. exact square_batch_fails. Qed.
Print Assumptions C89_square_batch_refuted.

(** The hypotheses hold for four points with three neighbours each, a length scale in [1/2, 2] and a free noise in [1/10, 1]: the full model
    with ShearNoise33 and no mask, and the shear-only model with the mask (1, 2). *)
Definition ex89_store : store := mkStore 2 (fun l => match l with
  | O => mkParam (Fin (1/2)) (Fin (1/10), Fin 1) false
  | _ => mkParam (Fin 1) (Fin (1/2), Fin 2) false end).
Definition ex89_model : model := mkModel (KRbf (LSScalar (mkNamed "length_scale" 1))) (NHomo (mkNamed "noise" 0)).
Definition ex89 : full := mkFull ex89_model ex89_model F2 (mkNd [] (fun _ => 0)) FixedScale 1 1.
Definition ex89_opt (s : store) (F : full) (f : dict R -> result R) : result (store * full) :=
  new_muygps s F ["length_scale"; "noise"] [(Fin (1/2), Fin 2); (Fin (1/10), Fin 1)]
    (combine ["length_scale"; "noise"] (map Fin [1; 1/2])).
Example C89_sat : exact_solver gauss /\ model_ok ex89_store ex89 /\ bounds_ok ex89_store ex89 /\ positive_bounds ex89_store ex89 /\
  get_opt_params ex89_store (f_attr ex89) =
    Ok (["length_scale"; "noise"], [Fin 1; Fin (1/2)], [(Fin (1/2), Fin 2); (Fin (1/10), Fin 1)]) /\
  shear_trainable Full33 true ex89_store ex89 /\ shear_trainable Two23 false ex89_store ex89 /\
  shear_values ex89_store ex89 1 (1/2) /\
  shear_batch exFeat exTgt exIx exNn 4 4 3 (fun x => x) (fun _ i => i) /\
  scored None [0; 1; 2]%nat /\ scored (Some [1; 2]%nat) [1; 2]%nat /\ loss_kw_ok [] /\
  returns_best ex89_opt ex89_store ex89 ["length_scale"; "noise"] [(Fin (1/2), Fin 2); (Fin (1/10), Fin 1)] (fun _ y => y = [1; 1/2]) /\
  shear_inputs exFeat exFeat exTgt exIx exNn 4 4 4 3.
Proof.
  assert (SV : shear_values ex89_store ex89 1 (1/2)).
  { exists (mkNamed "length_scale" 1), (mkNamed "noise" 0). auto. }
  split; [exact gauss_exact|].
  split.
  { split; [split; [constructor; reflexivity|split; [exact I|reflexivity]]|]. split; [discriminate|]. split.
    - intros n Hn. cbn in Hn. repeat destruct Hn as [<-|Hn]; cbn; try lia; destruct Hn.
    - cbn. repeat (constructor; [cbn; intuition discriminate|]). constructor. }
  split.
  { intros n Hn Hf. cbn in Hn. repeat destruct Hn as [<-|Hn]; cbn in *; try discriminate; try destruct Hn;
    (split; [discriminate|]; split; [discriminate|]; intros C; inversion C; lra). }
  split.
  { intros n Hn Hf. cbn in Hn. destruct Hn as [<-|[<-|[]]]; cbn in *; [exists (1/2)|exists (1/10)]; (split; [reflexivity|lra]). }
  split; [reflexivity|].
  split. { split; [reflexivity|]. split; [exists 1, (1/2); split; [exact SV|lra]|auto]. }
  split. { split; [reflexivity|]. split; [exists 1, (1/2); split; [exact SV|lra]|discriminate]. }
  split; [exact SV|].
  split. { split; [reflexivity|]. split; [reflexivity|]. split; [lia|]. split; [lia|]. split; [lia|]. split; [reflexivity|].
    split; [intros x Hx; split; [reflexivity|exact Hx]|]. split; [reflexivity|]. intros x i Hx Hi. split; [reflexivity|lia]. }
  split; [reflexivity|].
  split. { split; [reflexivity|]. split; [discriminate|]. intros o [<-|[<-|[]]]; lia. }
  split; [intros p []|].
  split; [|exact ex_inputs].
  intros f _. exists [1; 1/2]. split.
  { constructor; [split; intros C; inversion C; lra|]. constructor; [split; intros C; inversion C; lra|constructor]. }
  split; [reflexivity|]. intros y vx vy -> _ -> E. injection E as ->. lra.
Qed.
(** Four rows with four neighbours each (hypotheses of the refutation). *)
Example C89_square_sat : (2 <= 4)%nat /\ 4%nat <> observed Full33 /\ m_kernel (f_bound ex89) = KRbf (LSScalar (mkNamed "length_scale" 1)) /\
  0 < kw_or [] "length_scale" (reals ex89_store 1) /\
  exists t, shear_train_tensors Full33 None exIx (mkNd [4; 4]%nat (fun idx => match idx with [_; i] => Z.of_nat i | _ => 0%Z end)) exFeat exTgt = Ok t.
Proof.
  split; [lia|]. split; [cbn; lia|]. split; [reflexivity|]. split; [cbn; lra|].
  destruct (shear_train_tensors Full33 None exIx (mkNd [4; 4]%nat (fun idx => match idx with [_; i] => Z.of_nat i | _ => 0%Z end)) exFeat exTgt)
    as [t|e] eqn:E; [eauto|]. exfalso. revert E. unfold shear_train_tensors. lazy -[INR]. discriminate.
Qed.
