(** The expected training objective on data drawn from a candidate model (C112). *)
From Coq Require Import Lia Lra.
From Verif Require Import Base NdModel RSum LinAlgModel LinAlgSpec Gauss GPModel NoiseModel MuyGPSModel GPSpec ScaleSpec
  TensorModel TensorSpec HyperModel HyperSpec NamedModel NamedSpec KernelModel KernelSpec KernelCases FlowSpec PointwiseSpec LibSpec
  LossModel LossSpec ChassisModel ChassisSpec MultiModel DriverModel ClassifyModel NeighborsModel NeighborsSpec NeighborsProofs BatchProofs
  WorkModel WorkSpec WorkLemmas WorkProps TrainModel TrainSpec TrainProofs TrainProofs2 TrainProofs3 TrainProps BestSpec CalibSpec ExactLooSpec
  FairSpec FairProofs.
Local Open Scope R_scope.
Local Open Scope string_scope.

(** * C112 *)
(** If the training targets are drawn from the model of some point xs of the box (covariance, noise, times any scale), then the mse objective
    has its largest expected value at xs, for every kind of scale; and a candidate that does as well (scale positive) has the same objective as
    xs on every outcome. *)
Theorem C112_mse : forall ls, exact_solver ls -> forall sld eps gamma kv s F names x0 bounds train N b n c q,
  training s F names x0 bounds train N b n c q ->
  forall S pi T ix nn t kw draws, loss_kw_ok kw ->
  (forall o, (o < S)%nat -> batch_ok train (T o) ix nn N b n c q /\ full_train_tensors F ix nn train (T o) = Ok (t o)) ->
  probability S pi ->
  forall sc xs, drawn_at gamma kv s F names bounds train N S pi T sc xs -> 0 <= sc ->
  let obj := fun o x => obj_fn ls sld eps gamma kv s F Mse kw None draws
    (tr_pair (t o)) (tr_cross (t o)) (tr_nn_targets (t o)) (tr_targets (t o)) (combine names x) in
  forall x, in_box x bounds -> exists v vs,
    (forall o, (o < S)%nat -> obj o x = Ok (v o) /\ obj o xs = Ok (vs o)) /\
    expect S pi v <= expect S pi vs /\ (0 < sc -> expect S pi v = expect S pi vs -> forall o, (o < S)%nat -> v o = vs o).
Proof.
  intros ls EX sld eps gamma kv s F names x0 bounds train N b n c q TN S pi T ix nn t kw draws KW BK PR sc xs DA SC obj x BOX.
  apply (mse_best ls EX sld eps gamma kv s F names x0 bounds train N b n c q TN S pi T ix nn t kw draws KW BK PR sc xs DA x SC BOX).
Qed.
Print Assumptions C112_mse.

(** The same for lool, with a fixed scale equal to the one of the data, if the data have no observation noise. *)
Theorem C112_lool_noiseless : forall ls, exact_solver ls -> forall sld eps gamma kv s F names x0 bounds train N b n c q,
  training s F names x0 bounds train N b n c q ->
  forall S pi T ix nn t kw draws, loss_kw_ok kw ->
  (forall o, (o < S)%nat -> batch_ok train (T o) ix nn N b n c q /\ full_train_tensors F ix nn train (T o) = Ok (t o)) ->
  probability S pi ->
  forall sc xs, drawn_at gamma kv s F names bounds train N S pi T sc xs -> f_kind F = FixedScale -> f_scale F = sc -> 0 < sc ->
  (forall s' F', new_muygps s F names bounds (combine names (map Fin xs)) = Ok (s', F') -> noise_at (full_noise s' F') None 0 0 = 0) ->
  let obj := fun o x => obj_fn ls sld eps gamma kv s F Lool kw None draws
    (tr_pair (t o)) (tr_cross (t o)) (tr_nn_targets (t o)) (tr_targets (t o)) (combine names x) in
  forall x, in_box x bounds -> exists v vs,
    (forall o, (o < S)%nat -> obj o x = Ok (v o) /\ obj o xs = Ok (vs o)) /\
    expect S pi v <= expect S pi vs /\ (expect S pi v = expect S pi vs -> forall o, (o < S)%nat -> v o = vs o).
Proof.
  intros ls EX sld eps gamma kv s F names x0 bounds train N b n c q TN S pi T ix nn t kw draws KW BK PR sc xs DA FK FS SC NZ obj x BOX.
  apply (lool_best ls EX sld eps gamma kv s F names x0 bounds train N b n c q TN S pi T ix nn t kw draws KW BK PR sc xs DA x FK FS SC NZ BOX).
Qed.
Print Assumptions C112_lool_noiseless.

(** With observation noise nu the lool objective prefers too small correlations: its variance is that of the latent value, not of the left-out
    observation. With one neighbour and a fixed scale equal to the one of the data, every candidate whose correlations are below the true
    ones by less than a third of nu times the true ones (any smaller positive correlation, if nu >= 1) has a strictly larger expected objective
    than the truth. *)
Theorem C112_lool_noise_refuted : forall ls, exact_solver ls -> forall sld eps gamma kv s F names x0 bounds train N b n c q,
  training s F names x0 bounds train N b n c q -> n = 1%nat ->
  forall S pi T ix nn t kw draws, loss_kw_ok kw ->
  (forall o, (o < S)%nat -> batch_ok train (T o) ix nn N b n c q /\ full_train_tensors F ix nn train (T o) = Ok (t o)) ->
  probability S pi ->
  forall sc xs, drawn_at gamma kv s F names bounds train N S pi T sc xs -> f_kind F = FixedScale -> f_scale F = sc -> 0 < sc ->
  let obj := fun o x => obj_fn ls sld eps gamma kv s F Lool kw None draws
    (tr_pair (t o)) (tr_cross (t o)) (tr_nn_targets (t o)) (tr_targets (t o)) (combine names x) in
  forall x nu rho rhos, in_box x bounds -> 0 < nu ->
  correlations_at gamma kv s F names bounds train x b c q nu rho -> correlations_at gamma kv s F names bounds train xs b c q nu rhos ->
  (forall y, (y < b)%nat -> 0 <= rho y < rhos y /\ (3 * (rhos y - rho y) < nu * rhos y \/ 1 <= nu /\ 0 < rho y)) ->
  exists v vs, (forall o, (o < S)%nat -> obj o x = Ok (v o) /\ obj o xs = Ok (vs o)) /\ expect S pi vs < expect S pi v.
Proof.
  intros ls EX sld eps gamma kv s F names x0 bounds train N b n c q TN N1 S pi T ix nn t kw draws KW BK PR sc xs DA FK FS SC obj x nu rho rhos BOX NU CX CS HR.
  apply (lool_biased ls EX sld eps gamma kv s F names x0 bounds train N b n c q TN S pi T ix nn t kw draws KW BK PR sc xs DA x nu rho rhos); auto.
Qed.
Print Assumptions C112_lool_noise_refuted.

(** Data with these moments exist for every point of the box. *)
Theorem C112_data_exist : forall ls gamma kv s F names x0 bounds train N b n c q ix nn targets sc xs, exact_solver ls ->
  training s F names x0 bounds train N b n c q -> uniform_noise (full_noise s F) -> batch_ok train targets ix nn N b n c q ->
  0 <= sc -> in_box xs bounds ->
  exists S pi T t, probability S pi /\ drawn_at gamma kv s F names bounds train N S pi T sc xs /\
    forall o, (o < S)%nat -> batch_ok train (T o) ix nn N b n c q /\ full_train_tensors F ix nn train (T o) = Ok (t o).
Proof. intros ls gamma kv s F names x0 bounds train N b n c q ix nn targets sc xs. apply drawn_exist. Qed.
Print Assumptions C112_data_exist.

(** The hypotheses hold for training points 0, 1, 3 with one neighbour: an RBF model with length scale in [1/2, 2], fixed noise nu, fixed scale;
    rows 0 and 2 are left out, row 1 is the neighbour of both. *)
Definition ex112_store (nu : R) : store := mkStore 2 (fun l => match l with
  | O => mkParam (Fin nu) (Fin 0, Fin 0) true
  | _ => mkParam (Fin 1) (Fin (1/2), Fin 2) false end).
Definition ex112 (nu : R) : full :=
  mkFull ex84_model (model_make (ex112_store nu) ex84_model) F2 (mkNd [] (fun _ => 0)) FixedScale 3 3.
Definition ex112_c (x : nat) : nat := match x with O => O | _ => 2%nat end.
Definition ex112_q (x j : nat) : nat := 1%nat.

Example C112_sat : forall gamma kv nu, 0 <= nu ->
  training (ex112_store nu) (ex112 nu) ["length_scale"] [Fin 1] [(Fin (1/2), Fin 2)] ex80_train 3 2 1 ex112_c ex112_q /\
  uniform_noise (full_noise (ex112_store nu) (ex112 nu)) /\ f_kind (ex112 nu) = FixedScale /\ f_scale (ex112 nu) = 3 /\ 0 < 3 /\
  batch_ok ex80_train ex80_targets (index_vector [0; 2]%nat) (index_array 1 [[1]; [1]]%nat) 3 2 1 ex112_c ex112_q /\
  (forall l, 1/2 <= l <= 2 -> in_box [l] [(Fin (1/2), Fin 2)] /\
    correlations_at gamma kv (ex112_store nu) (ex112 nu) ["length_scale"] [(Fin (1/2), Fin 2)] ex80_train [l] 2 ex112_c ex112_q nu
      (fun y => match y with O => exp (- (1 / l ^ 2) / 2) | _ => exp (- (4 / l ^ 2) / 2) end)).
Proof.
  intros gamma kv nu NU.
  assert (TN : training (ex112_store nu) (ex112 nu) ["length_scale"] [Fin 1] [(Fin (1/2), Fin 2)] ex80_train 3 2 1 ex112_c ex112_q).
  { constructor.
    - split; [split; [constructor; reflexivity|split; [exact I|reflexivity]]|]. split; [discriminate|]. split.
      + intros n Hn. cbn in Hn. repeat destruct Hn as [<-|Hn]; cbn; try lia; destruct Hn.
      + cbn. repeat (constructor; [cbn; intuition discriminate|]). constructor.
    - intros n Hn Hf. cbn in Hn. repeat destruct Hn as [<-|Hn]; cbn in *; try discriminate; try destruct Hn.
      split; [discriminate|]. split; [discriminate|]. intros C; inversion C; lra.
    - intros n Hn Hf. cbn in Hn. repeat destruct Hn as [<-|Hn]; cbn in *; try discriminate; try destruct Hn. exists (1/2). split; [reflexivity|lra].
    - exact I.
    - reflexivity.
    - left; reflexivity.
    - split; [reflexivity|]. split.
      + eexists. split; [reflexivity|]. split; [reflexivity|]. split; [apply Nat.lt_0_1|]. split; [intros f _; cbn; lra|reflexivity].
      + split; [exact I|]. exact I.
    - intros x Hx. right. split; [intros i Hi; exact NU|]. split; [intros i j Hi Hj Hij; lia|].
      intros i Hi. exists O. split; [apply Nat.lt_0_1|]. unfold feature, ex80_train, ex112_c, ex112_q. cbn [shape at_].
      destruct x as [|x]; cbn; lra.
    - intros x Hx. split; [intros j Hj; unfold ex112_q, ex112_c; destruct x; lia|intros; lia]. }
  assert (BK : batch_ok ex80_train ex80_targets (index_vector [0; 2]%nat) (index_array 1 [[1]; [1]]%nat) 3 2 1 ex112_c ex112_q).
  { split; [left; reflexivity|]. split; [reflexivity|]. split; [lia|]. split; [lia|]. split; [reflexivity|]. split.
    - intros x Hx. destruct x as [|[|x]]; [| |lia]; (split; [reflexivity|unfold ex112_c; lia]).
    - split; [reflexivity|]. intros x j Hx Hj. destruct x as [|[|x]]; [| |lia]; (destruct j as [|j]; [|lia]); (split; [reflexivity|unfold ex112_q; lia]). }
  split; [exact TN|]. split; [right; exists nu; reflexivity|]. split; [reflexivity|]. split; [reflexivity|]. split; [lra|]. split; [exact BK|].
  intros l Hl. assert (BOX : in_box [l] [(Fin (1/2), Fin 2)]) by (constructor; [split; intros C; inversion C; lra|constructor]).
  split; [exact BOX|].
  destruct TN as [T1 T2 T3 T4 T5 T6 T7 T8 T9].
  destruct (tensors_total gamma kv _ _ _ _ _ _ _ _ _ _ _ T7 BK) as [t0 E0].
  destruct (candidate_value gauss gauss_exact (fun _ _ => (0, 0)) 0 gamma kv _ _ Mse [] (fun _ => []) _ _ _ _ _ _ _ _ _ _ _ _ t0 T1 T2 T3 T4 T5 T6 T7 T8 BK)
    with (x := [l]) as (s' & F' & v & E & OM & _); auto; [intros p []|split; discriminate|].
  pose proof (ObjectiveProofs.new_muygps_form _ _ _ _ _ _ _ E) as EF.
  destruct OM as (_ & F2 & _). rewrite EF in F2. cbn in F2. inversion F2 as [|n1 n1' r1 r1' O1 F3 X1 X2]. subst. inversion F3 as [|n2 n2' r2 r2' O2 F4 X1 X2]. subst.
  cbn in O1, O2. destruct O1 as (_ & _ & _ & _ & v1 & D1 & CL & _). injection D1 as <-.
  destruct O2 as (_ & _ & _ & _ & V2).
  change (clamped (Fin (1/2)) (Fin 2) (Fin l) (p_val (st_cell s' 3))) in CL.
  assert (V1 : p_val (st_cell s' 3) = Fin l).
  { destruct CL as [[C _]|[[C _]|(_ & _ & C)]]; [inversion C; lra|inversion C; lra|exact C]. }
  change (p_val (st_cell s' 2) = Fin nu) in V2.
  eexists s', _, _. split; [exact E|]. split; [reflexivity|]. split; [change (HomoscedasticNoise (reals s' 2) = HomoscedasticNoise nu); unfold reals; rewrite V2; reflexivity|].
  intros y Hy. unfold kcov, lk_cov, rbf_cov, scaled_sqdist, scale_of. unfold ex112_c, ex112_q, feature, ex80_train.
  destruct y as [|[|y]]; [| |lia]; cbn; unfold reals; cbn; rewrite V1; cbn; f_equal; field; lra.
Qed.

(** In that example, with a noise variance of at least 1 (the prior variance), every length scale shorter than the true one has a larger
    expected lool objective than the true one. *)
Theorem C112_shorter_length_scale_refuted : forall ls, exact_solver ls -> forall sld eps gamma kv draws nu l ltrue,
  1 <= nu -> 1/2 <= l < ltrue -> ltrue <= 2 ->
  exists S pi T t v vs, probability S pi /\
    drawn_at gamma kv (ex112_store nu) (ex112 nu) ["length_scale"] [(Fin (1/2), Fin 2)] ex80_train 3 S pi T 3 [ltrue] /\
    (forall o, (o < S)%nat ->
       full_train_tensors (ex112 nu) (index_vector [0; 2]%nat) (index_array 1 [[1]; [1]]%nat) ex80_train (T o) = Ok (t o) /\
       let obj := fun x => obj_fn ls sld eps gamma kv (ex112_store nu) (ex112 nu) Lool [] None draws
         (tr_pair (t o)) (tr_cross (t o)) (tr_nn_targets (t o)) (tr_targets (t o)) [("length_scale", x)] in
       obj l = Ok (v o) /\ obj ltrue = Ok (vs o)) /\
    expect S pi vs < expect S pi v.
Proof.
  intros ls EX sld eps gamma kv draws nu l lt NU [L1 L2] L3.
  destruct (C112_sat gamma kv nu ltac:(lra)) as (TN & U & FK & FS & SC & BK & CO).
  destruct (CO l ltac:(lra)) as [BX CX]. destruct (CO lt ltac:(lra)) as [BXs CS].
  destruct (C112_data_exist ls gamma kv _ _ _ _ _ _ _ _ _ _ _ _ _ _ 3 [lt] EX TN U BK ltac:(lra) BXs) as (S & pi & T & t & PR & DA & BT).
  destruct (C112_lool_noise_refuted ls EX sld eps gamma kv _ _ _ _ _ _ _ _ _ _ _ TN eq_refl S pi T _ _ t [] draws ltac:(intros p []) BT PR 3 [lt] DA FK FS SC [l] nu _ _ BX ltac:(lra) CX CS)
    as (v & vs & HO & LT).
  { assert (Q : 1 / lt ^ 2 < 1 / l ^ 2).
    { unfold Rdiv. rewrite !Rmult_1_l. apply Rinv_lt_contravar; [apply Rmult_lt_0_compat; apply pow_lt; lra|]. nra. }
    assert (Q4 : forall z, 4 / z ^ 2 = 4 * (1 / z ^ 2)) by (intros z; unfold Rdiv; ring).
    intros y Hy. destruct y as [|y]; (split; [split; [left; apply exp_pos|apply exp_increasing; try rewrite !Q4; lra]|right; split; [lra|apply exp_pos]]). }
  exists S, pi, T, t, v, vs. split; [exact PR|]. split; [exact DA|]. split; [|exact LT].
  intros o Ho. split; [apply BT; auto|]. exact (HO o Ho).
Qed.
Print Assumptions C112_shorter_length_scale_refuted.
