(** Property theorems C104 (predictions as functions of the hyperparameters) and C105 (the training objective has a best point). *)
From Coq Require Import Lia Lra.
From Verif Require Import Base BaseFacts NdModel NdFacts RSum LinAlgModel LinAlgSpec LinAlgFacts Gauss GPModel NoiseModel MuyGPSModel GPSpec GPTheorems
  ScaleSpec TensorModel TensorSpec TensorProofs HyperModel HyperSpec NamedModel NamedSpec KernelModel KernelSpec KernelProofs KernelCases
  NeighborsModel NeighborsSpec NeighborsProofs FlowModel FlowSpec FlowProofs PointwiseSpec LibSpec LossModel LossSpec ChassisModel ChassisSpec
  MultiModel DriverModel ClassifyModel WorkModel WorkSpec WorkProofs WorkLemmas WorkProps BestSpec LocalSpec FarSpec SmoothProofs
  TrainModel TrainSpec TrainProofs TrainProofs2 TrainProps ContSpec ContProofs ContProofs2.
Local Open Scope R_scope.
Local Open Scope string_scope.

(** * C104 *)
(** With a closed-form kernel and sound noise the prediction succeeds, and depends continuously on the length scales, the noise and the
    variance scale, at every setting, for every test row (ties among the neighbours included): the neighbours do not depend on the
    hyperparameters, so nothing jumps.  C104_continuous in Cont3Props is the same for every kernel, wherever the prediction succeeds. *)
Theorem C104_succeeds : forall gamma kv ls, exact_solver ls -> forall knn hnsw dist, sklearn_ok knn dist ->
  forall en method kw w g K cur test train targets N M n ex,
  lower method = "exact" -> euclidean_kw kw -> nn_init en (rows_of train) n method kw = Ok w -> (0 < n <= N /\ 0 < M)%nat ->
  dataset test M -> dataset train N -> ndim test = ndim train -> feature_count test = feature_count train ->
  lk_ok K (feature_count train) cur [] -> shape targets = N :: ex -> no_coincidence ex [n] ->
  shape (gp_Kout g) = [] -> at_ (gp_Kout g) [] = 1 -> 0 <= gp_var_scale g -> noise_fits (gp_noise g) M n -> sound_noise (gp_noise g) train N M n ->
  exists mean var,
    regress_any ls knn hnsw (Univariate (lib_model gamma kv g K cur)) test train w targets = Ok (mean, var) /\
    forall eps, 0 < eps -> exists d, 0 < d /\ forall g' cur',
      values_close cur cur' d -> noise_close (gp_noise g) (gp_noise g') M n d -> Rabs (gp_var_scale g' - gp_var_scale g) < d ->
      noise_at_least (gp_noise g') 0 M n -> noise_fits (gp_noise g') M n -> shape (gp_Kout g') = [] -> at_ (gp_Kout g') [] = 1 -> 0 <= gp_var_scale g' ->
      exists mean' var',
        regress_any ls knn hnsw (Univariate (lib_model gamma kv g' K cur')) test train w targets = Ok (mean', var') /\
        forall x, (x < M)%nat -> Rabs (at_ var' [x] - at_ var [x]) < eps /\ forall e, inb ex e -> Rabs (at_ mean' (x :: e) - at_ mean (x :: e)) < eps.
Proof. exact params_cont. Qed.
Print Assumptions C104_succeeds.

(** The data of C80_sat without noise, with a little noise added, and with changed length scale and variance scale. *)
Example C104_sat : forall d, 0 < d -> d < 1 ->
  sound_noise (gp_noise ex80_gp) ex80_train 3 2 2 /\
  let g' := mkGp (HomoscedasticNoise (d / 2)) FixedScale 1 (1 + d / 2) (mkNd [] (fun _ => 1)) in
  values_close (fun _ => 1) (fun _ => 1 - d / 2) d /\ noise_close (gp_noise ex80_gp) (gp_noise g') 2 2 d /\
  Rabs (gp_var_scale g' - gp_var_scale ex80_gp) < d /\ noise_at_least (gp_noise g') 0 2 2 /\ noise_fits (gp_noise g') 2 2.
Proof.
  intros d D D1. destruct C80_sat as (knn & dist & w & w' & H). decompose [and] H. split; [assumption|]. cbn.
  split; [intros l; apply Rabs_def1; lra|]. split; [intros x i _ _; cbn; apply Rabs_def1; lra|]. split; [apply Rabs_def1; lra|].
  split; [intros x i _ _; cbn; lra|exact Logic.I].
Qed.

(** * C105 *)
(** The objective that optimize_from_indices builds is continuous on the box of bounds, ... *)
Theorem C105_objective_continuous : forall ls, exact_solver ls -> forall sld eps0 gamma kv s F l kw draws train targets ix nn N b n c q names x0 bounds,
  model_ok s F -> bounds_ok s F -> positive_bounds s F -> leading_free s (k_ls (m_kernel (f_attr F))) ->
  get_opt_params s (f_attr F) = Ok (names, x0, bounds) -> (f_kind F = FixedScale \/ ~ In "noise" names) ->
  trainable s F train b n -> loo_well_posed (full_noise s F) train b n c q ->
  batch_ok train targets ix nn N b n c q -> loss_kw_ok kw -> scores_vectors l -> (l = Lool \/ l = Looph -> positive_scale F targets b n q) ->
  forall t, full_train_tensors F ix nn train targets = Ok t ->
  let obj := obj_fn ls sld eps0 gamma kv s F l kw None draws (tr_pair t) (tr_cross t) (tr_nn_targets t) (tr_targets t) in
  forall x, in_box x bounds -> forall eps, 0 < eps -> exists d, 0 < d /\ forall y, in_box y bounds -> point_close x y d ->
    exists vx vy, obj (combine names x) = Ok vx /\ obj (combine names y) = Ok vy /\ Rabs (vy - vx) < eps.
Proof. intros. eapply obj_cont; eauto. Qed.
Print Assumptions C105_objective_continuous.

(** ... and if the bounds are finite it attains its largest value there: there is a model within the bounds whose leave-one-out value is at
    least that of every other model within the bounds. *)
Theorem C105_best_exists : forall ls, exact_solver ls -> forall sld eps0 gamma kv s F l kw draws train targets ix nn N b n c q names x0 bounds,
  model_ok s F -> bounds_ok s F -> positive_bounds s F -> leading_free s (k_ls (m_kernel (f_attr F))) ->
  get_opt_params s (f_attr F) = Ok (names, x0, bounds) -> (f_kind F = FixedScale \/ ~ In "noise" names) ->
  trainable s F train b n -> loo_well_posed (full_noise s F) train b n c q ->
  batch_ok train targets ix nn N b n c q -> loss_kw_ok kw -> scores_vectors l -> (l = Lool \/ l = Looph -> positive_scale F targets b n q) ->
  finite_bounds bounds -> forall t, full_train_tensors F ix nn train targets = Ok t ->
  let obj := obj_fn ls sld eps0 gamma kv s F l kw None draws (tr_pair t) (tr_cross t) (tr_nn_targets t) (tr_targets t) in
  exists x s' F' v, in_box x bounds /\ obj (combine names x) = Ok v /\
    new_muygps s F names bounds (combine names (map Fin x)) = Ok (s', F') /\ loo_value gamma kv s' F' l kw train targets b n c q v /\
    forall y, in_box y bounds -> exists s'' F'' w, obj (combine names y) = Ok w /\
      new_muygps s F names bounds (combine names (map Fin y)) = Ok (s'', F'') /\ loo_value gamma kv s'' F'' l kw train targets b n c q w /\ w <= v.
Proof.
  intros ls EX sld eps0 gamma kv s F l kw draws train targets ix nn N b n c q names x0 bounds MO BO PB LF EO SK TR WP BK KW LS PS FB t ET obj.
  destruct (obj_max ls EX sld eps0 gamma kv s F l kw draws train targets ix nn N b n c q names x0 bounds MO BO PB LF EO SK TR WP BK KW LS PS t ET FB)
    as (x & v & BX & Ex & MX).
  pose proof (candidate_value ls EX sld eps0 gamma kv s F l kw draws train targets ix nn N b n c q names x0 bounds t MO BO PB LF EO SK TR WP BK KW LS ET) as CV.
  destruct (CV x BX) as (s' & F' & v' & E & _ & OB & LV & _). fold obj in OB, Ex. rewrite Ex in OB. injection OB as <-.
  exists x, s', F', v. split; [exact BX|]. split; [exact Ex|]. split; [exact E|]. split; [exact LV|]. intros y BY.
  destruct (CV y BY) as (s'' & F'' & w & E' & _ & OB' & LV' & _). destruct (MX y BY) as (w' & Ew & L). fold obj in OB', Ew. rewrite OB' in Ew. injection Ew as <-.
  exists s'', F'', w. auto.
Qed.
Print Assumptions C105_best_exists.

(** An optimizer that finds it makes optimize_from_indices return the best model within the bounds. *)
Theorem C105_best_is_returned : forall ls, exact_solver ls -> forall sld eps0 gamma kv s F l kw draws train targets ix nn N b n c q names x0 bounds,
  model_ok s F -> bounds_ok s F -> positive_bounds s F -> leading_free s (k_ls (m_kernel (f_attr F))) ->
  get_opt_params s (f_attr F) = Ok (names, x0, bounds) -> (f_kind F = FixedScale \/ ~ In "noise" names) ->
  trainable s F train b n -> loo_well_posed (full_noise s F) train b n c q ->
  batch_ok train targets ix nn N b n c q -> loss_kw_ok kw -> scores_vectors l -> (l = Lool \/ l = Looph -> positive_scale F targets b n q) ->
  finite_bounds bounds ->
  exists minimize s' F' v,
    optimize_from_indices ls sld eps0 gamma kv (scipy_optimize minimize) s F l kw None draws ix nn train targets = Ok (s', F') /\
    loo_value gamma kv s' F' l kw train targets b n c q v /\
    forall y, in_box y bounds -> exists s'' F'' w,
      new_muygps s F names bounds (combine names (map Fin y)) = Ok (s'', F'') /\ loo_value gamma kv s'' F'' l kw train targets b n c q w /\ w <= v.
Proof.
  intros ls EX sld eps0 gamma kv s F l kw draws train targets ix nn N b n c q names x0 bounds MO BO PB LF EO SK TR WP BK KW LS PS FB.
  destruct (C83_tensors_total gamma kv s F train targets ix nn N b n c q TR BK) as (t & ET).
  destruct (obj_max ls EX sld eps0 gamma kv s F l kw draws train targets ix nn N b n c q names x0 bounds MO BO PB LF EO SK TR WP BK KW LS PS t ET FB)
    as (x & v0 & BX & Ex & MX).
  exists (fun _ _ _ => Ok (map Fin x)).
  destruct (C83_scipy_best ls EX sld eps0 gamma kv s F l kw draws train targets ix nn N b n c q names x0 bounds MO BO PB LF EO SK TR WP BK KW LS
    t x (fun _ => True) (fun _ _ _ => Ok (map Fin x)) ET eq_refl BX) as (s' & F' & v & E & _ & LV & B).
  { intros y vx vy _ BY Hx Hy. unfold obj_fn_adapter in Hx, Hy.
    destruct (MX y BY) as (w & Ew & L). rewrite Ex in Hx. rewrite Ew in Hy. cbn [bind] in Hx, Hy. injection Hx as <-. injection Hy as <-. lra. }
  exists s', F', v. split; [exact E|]. split; [exact LV|]. intros y BY. apply B; auto.
Qed.
Print Assumptions C105_best_is_returned.

(** The model, the data and the batch of C84_sat (bounds 1/2 and 2). *)
Example C105_sat :
  model_ok ex84_store ex84 /\ bounds_ok ex84_store ex84 /\ positive_bounds ex84_store ex84 /\
  leading_free ex84_store (k_ls (m_kernel (f_attr ex84))) /\
  get_opt_params ex84_store (f_attr ex84) = Ok (["length_scale"], [Fin 1], [(Fin (1/2), Fin 2)]) /\ ~ In "noise" ["length_scale"] /\
  trainable ex84_store ex84 ex80_train 2 2 /\ finite_bounds [(Fin (1/2), Fin 2)] /\ scores_vectors Lool /\
  let c := fun x => match x with O => 2%nat | _ => O end in
  let q := fun x j => match x, j with O, O => 1%nat | O, _ => O | _, O => 1%nat | _, _ => 2%nat end in
  loo_well_posed (full_noise ex84_store ex84) ex80_train 2 2 c q /\ (exists ix nn, batch_ok ex80_train ex80_targets ix nn 3 2 2 c q) /\
  positive_scale ex84 ex80_targets 2 2 q.
Proof.
  destruct C84_sat as (knn & dist & w & H). decompose [and] H. repeat (split; [assumption|]).
  split; [constructor; [exists (1/2), 2; reflexivity|constructor]|]. split; [split; discriminate|].
  split; [assumption|]. split; [assumption|]. exists O, O. split; [lia|]. split; [lia|]. cbn. lra.
Qed.

(** With an unbounded length scale there may be no best model: two training points at distance 1, the response of the second twice that of
    the first, noise variance 1: the leave-one-out error decreases strictly as the length scale grows. *)
Definition ex105_store : store := mkStore 2 (fun l => match l with
  | O => mkParam (Fin 1) (Fin 0, Fin 0) true
  | _ => mkParam (Fin 1) (Fin (1/2), PInf) false end).
Definition ex105 : full :=
  mkFull ex84_model (model_make ex105_store ex84_model) F2 (mkNd [] (fun _ => 0)) FixedScale 1 1.
Definition ex105_train : nd R := mkNd [2%nat] (fun idx => match idx with [O] => 0 | _ => 1 end).
Definition ex105_targets : nd R := mkNd [2%nat] (fun idx => match idx with [O] => 1 | _ => 2 end).

Lemma ex105_kernel (l l' : R) : 0 < l -> l < l' -> exp (- (1 / l) ^ 2 / 2) < exp (- (1 / l') ^ 2 / 2) < 1.
Proof.
  intros L LL. split.
  - apply exp_increasing. assert (A : 0 < 1 / l' < 1 / l).
    { split; [apply Rdiv_lt_0_compat; lra|]. unfold Rdiv. rewrite !Rmult_1_l. apply Rinv_lt_contravar; [apply Rmult_lt_0_compat; lra|exact LL]. }
    assert (B : (1 / l') ^ 2 < (1 / l) ^ 2) by (cbn [pow]; rewrite !Rmult_1_r; apply Rmult_gt_0_lt_compat; lra).
    set (u := (1 / l') ^ 2) in *. set (v := (1 / l) ^ 2) in *. lra.
  - apply Rlt_le_trans with (exp 0); [|rewrite exp_0; lra]. apply exp_increasing. assert (0 < (1 / l') ^ 2) by (apply pow_lt; apply Rdiv_lt_0_compat; lra). set (u := (1 / l') ^ 2) in *. lra.
Qed.

Theorem C105_unbounded_refuted : forall ls, exact_solver ls -> forall sld eps0 gamma kv draws,
  exists s F train targets ix nn c q names x0 bounds t,
  model_ok s F /\ bounds_ok s F /\ positive_bounds s F /\ leading_free s (k_ls (m_kernel (f_attr F))) /\
  get_opt_params s (f_attr F) = Ok (names, x0, bounds) /\ f_kind F = FixedScale /\
  trainable s F train 1 1 /\ loo_well_posed (full_noise s F) train 1 1 c q /\ batch_ok train targets ix nn 2 1 1 c q /\
  full_train_tensors F ix nn train targets = Ok t /\
  let obj := obj_fn ls sld eps0 gamma kv s F Mse [] None draws (tr_pair t) (tr_cross t) (tr_nn_targets t) (tr_targets t) in
  (forall x, in_box x bounds -> exists v, obj (combine names x) = Ok v) /\
  forall x v, in_box x bounds -> obj (combine names x) = Ok v -> exists y w, in_box y bounds /\ obj (combine names y) = Ok w /\ v < w.
Proof.
  intros ls EX sld eps0 gamma kv draws.
  set (s := ex105_store). set (F := ex105). set (names := ["length_scale"]). set (bounds := [(Fin (1/2), PInf)]).
  set (c := fun _ : nat => O). set (q := fun _ _ : nat => 1%nat).
  set (ix := index_vector [0]%nat). set (nn := index_array 1 [[1]]%nat).
  assert (MO : model_ok s F).
  { split; [split; [constructor; reflexivity|split; [exact Logic.I|reflexivity]]|]. split; [discriminate|]. split.
    - intros n Hn. cbn in Hn. repeat destruct Hn as [<-|Hn]; cbn; try lia; destruct Hn.
    - cbn. repeat (constructor; [cbn; intuition discriminate|]). constructor. }
  assert (BO : bounds_ok s F).
  { intros n Hn Hf. cbn in Hn. repeat destruct Hn as [<-|Hn]; cbn in *; try discriminate; try destruct Hn.
    split; [discriminate|]. split; [discriminate|]. intros C; inversion C. }
  assert (PB : positive_bounds s F).
  { intros n Hn Hf. cbn in Hn. repeat destruct Hn as [<-|Hn]; cbn in *; try discriminate; try destruct Hn. exists (1/2). split; [reflexivity|lra]. }
  assert (EO : get_opt_params s (f_attr F) = Ok (names, [Fin 1], bounds)) by reflexivity.
  assert (TR : trainable s F ex105_train 1 1).
  { split; [reflexivity|]. split.
    - eexists. split; [reflexivity|]. split; [reflexivity|]. split; [apply Nat.lt_0_1|]. split; [intros f _; cbn; lra|reflexivity].
    - split; exact Logic.I. }
  assert (WP : loo_well_posed (full_noise s F) ex105_train 1 1 c q) by (intros x Hx; left; intros i Hi; cbn; lra).
  assert (BK : batch_ok ex105_train ex105_targets ix nn 2 1 1 c q).
  { split; [left; reflexivity|]. split; [reflexivity|]. split; [lia|]. split; [lia|]. split; [reflexivity|]. split.
    - intros x Hx. destruct x; [|lia]. split; [reflexivity|unfold c; lia].
    - split; [reflexivity|]. intros x j Hx Hj. destruct x; [|lia]. destruct j; [|lia]. split; [reflexivity|unfold q; lia]. }
  destruct (C83_tensors_total gamma kv s F ex105_train ex105_targets ix nn 2 1 1 c q TR BK) as (t & ET).
  exists s, F, ex105_train, ex105_targets, ix, nn, c, q, names, [Fin 1], bounds, t.
  split; [exact MO|]. split; [exact BO|]. split; [exact PB|]. split; [exact Logic.I|]. split; [exact EO|]. split; [reflexivity|].
  split; [exact TR|]. split; [exact WP|]. split; [exact BK|]. split; [exact ET|]. intros obj.
  assert (LS : scores_vectors Mse) by (split; discriminate).
  assert (KW : loss_kw_ok []) by (intros p []).
  pose proof (candidate_value ls EX sld eps0 gamma kv s F Mse [] draws ex105_train ex105_targets ix nn 2 1 1 c q names [Fin 1] bounds t MO BO PB
    Logic.I EO (or_introl eq_refl) TR WP BK KW LS ET) as CV. fold obj in CV.
  assert (VAL : forall l, 1/2 <= l -> obj (combine names [l]) = Ok (- (exp (- (1 / l) ^ 2 / 2) - 1) ^ 2)).
  { intros l L. assert (BX : in_box [l] bounds) by (constructor; [split; intros C; cbn in C; inversion C; lra|constructor]).
    destruct (CV [l] BX) as (s' & F' & v & E & O' & OB & (K' & mean & var & scale & L' & EK & LP & _ & _ & BL & ->) & TR' & _).
    rewrite OB. f_equal. f_equal. cbn in BL. injection BL as <-.
    assert (C : candidate s F names bounds [l] s' F') by (split; auto).
    destruct (cand_lib s F names [Fin 1] bounds MO EO [l] s' F' _ K' C eq_refl EK) as [[M FM]|Bad]; [|discriminate].
    destruct (cand_attr s F names bounds _ _ _ C) as (AT & _).
    destruct (cand_opt s F names [Fin 1] bounds MO EO _ _ _ (mkNamed "length_scale" 1) C ltac:(left; reflexivity)) as [_ VL].
    destruct (cand_opt s F names [Fin 1] bounds MO EO _ _ _ (mkNamed "noise" 0) C ltac:(right; left; reflexivity)) as [_ VN].
    cbn in VL, VN, M. assert (EQ : K' = LRbf (Iso F2 (mkNamed "length_scale" 3))).
    { destruct K' as [d|d sm p]; cbn in M; injection M as <-; [reflexivity|]. exfalso.
      unfold full_lib in EK. rewrite AT in EK. cbn in EK. destruct (full_deformation F'); discriminate. }
    assert (NZ : full_noise s' F' = HomoscedasticNoise 1).
    { unfold full_noise. rewrite AT. cbn. f_equal. exact VN. }
    subst K'. destruct (LP O Nat.lt_0_1) as ((w & SV & ->) & _). rewrite NZ in SV.
    set (k := lk_cov gamma kv (LRbf (Iso F2 (mkNamed "length_scale" 3))) (feature_count ex105_train) (reals s') []) in *.
    assert (K0 : kcov k ex105_train ex105_train 1 1 = 1).
    { unfold kcov, k, lk_cov, rbf_cov, scaled_sqdist. cbn. rewrite VL. rewrite <- exp_0. f_equal. field. lra. }
    assert (K1 : kcov k ex105_train ex105_train 0 1 = exp (- (1 / l) ^ 2 / 2)).
    { unfold kcov, k, lk_cov, rbf_cov, scaled_sqdist. cbn. rewrite VL. f_equal. field. lra. }
    specialize (SV O Nat.lt_0_1). unfold nbr_matrix, plus_diag, c, q in SV. cbn [Nat.eqb noise_at rsum dot] in SV.
    unfold dot in *. cbn [rsum ex105_targets at_ c q] in *. rewrite K0, K1 in SV. set (u := exp (- (1 / l) ^ 2 / 2)) in *.
    replace (w 0%nat) with (u / 2) by lra. field. }
  assert (BOX : forall x, in_box x bounds -> exists l, x = [l] /\ 1/2 <= l).
  { intros x BX. inversion BX as [|l b0 x' bs (A & _) B]; subst. inversion B; subst. exists l. split; [reflexivity|].
    cbn in A. destruct (Rle_lt_dec (1/2) l) as [H|H]; [exact H|]. exfalso. apply A. constructor. exact H. }
  split.
  - intros x BX. destruct (BOX x BX) as (l & -> & L). eexists. apply VAL. exact L.
  - intros x v BX E. destruct (BOX x BX) as (l & -> & L). rewrite (VAL l L) in E.
    assert (v = - (exp (- (1 / l) ^ 2 / 2) - 1) ^ 2) as -> by congruence.
    exists [l + 1]. eexists. split; [constructor; [split; intros C; cbn in C; inversion C; lra|constructor]|]. split; [apply VAL; lra|].
    destruct (ex105_kernel l (l + 1)) as [A B]; [lra|lra|].
    set (u := exp (- (1 / l) ^ 2 / 2)) in *. set (w := exp (- (1 / (l + 1)) ^ 2 / 2)) in *.
    assert (P : 0 < (w - u) * (2 - u - w)) by (apply Rmult_lt_0_compat; lra). nra.
Qed.
Print Assumptions C105_unbounded_refuted.
