(** C112 for the weak-lensing models: the expected training objective on random surveys. *)
From Coq Require Import Lia Lra.
From Verif Require Import Base BaseFacts NdModel NdFacts RSum LinAlgModel LinAlgSpec Gauss MuyGPSModel TensorModel TensorSpec HyperModel HyperSpec NamedModel NamedSpec
  KernelModel KernelSpec FlowSpec LossModel LossSpec ChassisModel ChassisSpec ObjectiveProofs TrainSpec BestSpec CalibSpec ExactLooSpec ShearModel ShearSpec ShearFlowSpec
  ShearTrainModel ShearTrainSpec ShearTrainProofs ShearTrainProofs2 ShearBestSpec ShearEdge ShearTrainProps FairProofs ShearFairSpec ShearFairProofs.
Local Open Scope R_scope.

(** Surveys [T e] drawn from the lensing model that the optimizer would return for the point [xs] of the box: averaged over the surveys the
    mean squared error objective is largest at [xs]; a candidate that does as well on average has the same objective on every survey. *)
Theorem C112_shear_mse : forall ls, exact_solver ls -> forall sld eps km sn s F names x0 bounds,
  model_ok s F -> bounds_ok s F -> positive_bounds s F -> get_opt_params s (f_attr F) = Ok (names, x0, bounds) -> shear_trainable km sn s F ->
  forall kw mask outs draws train ix nn n b k c q, scored mask outs -> loss_kw_ok kw -> (forall x, (x < b)%nat -> others_of n k (c x) (q x)) ->
  forall outcomes pi T t, probability outcomes pi ->
  (forall e, (e < outcomes)%nat -> shear_batch train (T e) ix nn n b k c q /\ shear_train_tensors km mask ix nn train (T e) = Ok (t e)) ->
  forall sc xs, 0 <= sc -> in_box xs bounds ->
  (exists s' F' l v, new_muygps s F names bounds (combine names (map Fin xs)) = Ok (s', F') /\ shear_values s' F' l v /\
     survey_drawn outcomes pi T sn l v sc train n) ->
  let obj := fun e x => shear_obj_fn ls sld eps km sn s F Mse kw mask draws (t e) (combine names x) in
  forall x, in_box x bounds -> exists v vs,
    (forall e, (e < outcomes)%nat -> obj e x = Ok (v e) /\ obj e xs = Ok (vs e)) /\
    expect outcomes pi v <= expect outcomes pi vs /\
    (0 < sc -> expect outcomes pi v = expect outcomes pi vs -> forall e, (e < outcomes)%nat -> v e = vs e).
Proof.
  intros ls EX sld eps km sn s F names x0 bounds MO BO PB EO TR kw mask outs draws train ix nn n b k c q SC KW OT outcomes pi T t PR BT sc xs S0 BX DR obj x BX'.
  exact (shear_fair ls EX sld eps km sn s F names x0 bounds MO BO PB EO TR kw mask outs draws train ix nn n b k c q SC KW OT outcomes pi T t PR BT sc xs S0 BX DR x BX').
Qed.
Print Assumptions C112_shear_mse.

(** Such surveys exist for every point of the box and every batch. *)
Theorem C112_shear_data_exist : forall ls, exact_solver ls -> forall km sn s F names x0 bounds,
  model_ok s F -> bounds_ok s F -> positive_bounds s F -> get_opt_params s (f_attr F) = Ok (names, x0, bounds) -> shear_trainable km sn s F ->
  forall mask outs train targets ix nn n b k c q sc xs, scored mask outs -> shear_batch train targets ix nn n b k c q -> 0 <= sc -> in_box xs bounds ->
  exists outcomes pi T t, probability outcomes pi /\
    (forall e, (e < outcomes)%nat -> shear_batch train (T e) ix nn n b k c q /\ shear_train_tensors km mask ix nn train (T e) = Ok (t e)) /\
    exists s' F' l v, new_muygps s F names bounds (combine names (map Fin xs)) = Ok (s', F') /\ shear_values s' F' l v /\
      survey_drawn outcomes pi T sn l v sc train n.
Proof.
  intros ls EX km sn s F names x0 bounds MO BO PB EO TR mask outs train targets ix nn n b k c q sc xs SC BK S0 BX.
  destruct (train_tensors_split km mask ix nn train targets n b k c q BK outs SC) as (t0 & ET & _).
  destruct (shear_candidate_value km sn s F names x0 bounds MO BO PB EO TR ls EX (fun _ _ => (0, 0)) 0 Mse [] mask outs (fun _ => []) train targets ix nn n b k c q BK SC
    ltac:(intros p []) (or_introl eq_refl) t0 ET xs BX) as (s' & F' & w & E & _ & _ & (l & v & mean & L & SV & Hl & Hv & _) & _).
  assert (Hn : (0 < n)%nat). { destruct BK as (_ & _ & Hb & _ & _ & _ & HC & _). destruct (HC O ltac:(lia)). lia. }
  destruct (survey_exists sn l v sc train n Hn Hl Hv S0) as (S & pi & T & DR & SH).
  assert (BT : forall e, shear_batch train (T e) ix nn n b k c q).
  { intros e. destruct BK as (B1 & B2 & B3). split; [exact B1|]. split; [apply SH|exact B3]. }
  exists S, pi, T, (fun e => match shear_train_tensors km mask ix nn train (T e) with Ok t => t | Err _ => t0 end).
  split; [exact (proj1 DR)|]. split; [|exists s', F', l, v; auto].
  intros e _. split; [apply BT|]. destruct (train_tensors_split km mask ix nn train (T e) n b k c q (BT e) outs SC) as (t1 & -> & _). reflexivity.
Qed.
Print Assumptions C112_shear_data_exist.

(** The survey of C89_sat, each of the four points predicted from the three others. *)
Definition ex112_others (x i : nat) : nat := if (i <? x)%nat then i else (i + 1)%nat.
Definition ex112_nn : nd Z := mkNd [4; 3]%nat (fun idx => match idx with [x; i] => Z.of_nat (ex112_others x i) | _ => 0%Z end).
Example C112_shear_sat : exists names x0 bounds, exact_solver gauss /\ model_ok ex89_store ex89 /\ bounds_ok ex89_store ex89 /\ positive_bounds ex89_store ex89 /\
  get_opt_params ex89_store (f_attr ex89) = Ok (names, x0, bounds) /\
  shear_trainable Full33 true ex89_store ex89 /\ shear_trainable Two23 false ex89_store ex89 /\
  scored None [0; 1; 2]%nat /\ scored (Some [1; 2]%nat) [1; 2]%nat /\ loss_kw_ok [] /\
  shear_batch exFeat exTgt exIx ex112_nn 4 4 3 (fun x => x) ex112_others /\ (forall x, (x < 4)%nat -> others_of 4 3 x (ex112_others x)) /\
  in_box [1; 1/2] bounds.
Proof.
  destruct C89_sat as (H1 & H2 & H3 & H4 & H5 & H6 & H7 & _ & H9 & H10 & H11 & H12 & _).
  assert (OT : forall x i, (x < 4)%nat -> (i < 3)%nat -> (ex112_others x i < 4)%nat /\ ex112_others x i <> x).
  { intros x i Hx Hi. unfold ex112_others. destruct (Nat.ltb_spec i x); lia. }
  eexists _, _, _. split; [exact H1|]. split; [exact H2|]. split; [exact H3|]. split; [exact H4|]. split; [exact H5|]. split; [exact H6|].
  split; [exact H7|]. split; [exact H10|]. split; [exact H11|]. split; [exact H12|]. split; [|split].
  - destruct H9 as (B1 & B2 & B3 & B4 & B5 & B6 & B7 & _). split; [exact B1|]. split; [exact B2|]. split; [exact B3|]. split; [exact B4|]. split; [exact B5|].
    split; [exact B6|]. split; [exact B7|]. split; [reflexivity|]. intros x i Hx Hi. split; [reflexivity|apply OT; auto].
  - intros x Hx. split; [intros j Hj; apply OT; auto|]. intros i j Hi Hj. unfold ex112_others. destruct (Nat.ltb_spec i x), (Nat.ltb_spec j x); lia.
  - constructor; [split; intros C; inversion C; lra|]. constructor; [split; intros C; inversion C; lra|constructor].
Qed.
