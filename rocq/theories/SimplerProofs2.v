(** Lemmas for C114: training. *)
From Coq Require Import Lia Lra.
From Verif Require Import Base BaseFacts NdModel NdFacts RSum LinAlgModel LinAlgSpec LinAlgFacts
  GPModel NoiseModel MuyGPSModel MuyGPSProofs GPSpec GPTheorems ScaleSpec ScaleProofs TensorModel TensorSpec TensorProofs
  HyperModel HyperSpec NamedModel NamedSpec NamedProofs KernelModel KernelSpec KernelLemmas FlowModel FlowSpec FlowProofs PointwiseSpec LibSpec LibProofs
  LossModel LossSpec LossProofs ChassisModel ChassisSpec ChassisProofs ObjectiveProofs MultiModel DriverModel ClassifyModel WorkModel WorkSpec WorkProofs WorkLemmas
  NeighborsModel NeighborsSpec NeighborsProofs BatchProofs BatchLemmas
  TrainModel TrainSpec TrainProofs TrainProofs2 TrainProofs3 BestProofs SimSpec SimProofs UnitsSpec UnitsProofs UnitsProofs2 UnitsProofs3 SimTrainSpec SimTrainProofs
  FairSpec SimplerSpec SimplerProofs.
Local Open Scope R_scope.

Section C.
Variables (gamma : R -> R) (kv : R -> R -> R).

Lemma lk_cov_family K nf cur kw v (fm : formula) :
  match K with LRbf _ => fm = Infinite | LMatern _ _ p => fm = formula_for p end -> fm <> General ->
  lk_cov gamma kv K nf cur kw v = matern_value gamma kv fm 0 (sqrt (scaled_sqdist nf (scale_of (lk_def K) cur kw) v (fun _ => 0))).
Proof.
  destruct K as [d|d sm p]; cbn [lk_cov lk_def]; intros -> NG.
  - cbn [matern_value]. unfold rbf_cov, gaussian. rewrite pow2_sqrt by apply scaled_sqdist_nonneg. reflexivity.
  - unfold matern_cov. destruct (formula_for p); try reflexivity. congruence.
Qed.

Lemma candidate_model s F names x0 bounds x s' F' train b n : model_ok s F -> leading_free s (k_ls (m_kernel (f_attr F))) ->
  get_opt_params s (f_attr F) = Ok (names, x0, bounds) -> in_box x bounds ->
  new_muygps s F names bounds (combine names (map Fin x)) = Ok (s', F') -> optimized_model s F (combine names (map Fin x)) s' F' ->
  trainable s F train b n -> trainable s' F' train b n ->
  exists K, full_lib s' F' = Some K /\
    (forall v, lk_cov gamma kv K (feature_count train) (reals s') [] v =
       matern_value gamma kv (family s F) 0 (sqrt (scaled_sqdist (feature_count train) (scale_of (lk_def K) (reals s') []) v (fun _ => 0)))) /\
    (forall f l, scale_at s F names x f l -> scale_of (lk_def K) (reals s') [] f = l) /\
    (forall y i r, noise_value s F names x y i r -> noise_at (full_noise s' F') None y i = r).
Proof.
  intros MO LF EO BX E O TR TR'.
  pose proof (fun nm H => candidate_at s F names x0 bounds x s' F' nm MO EO BX E O H) as C.
  pose proof (new_muygps_form _ _ _ _ _ _ _ E) as EF.
  assert (AT : f_attr F' = model_make s' (move_model (st_next s) (f_attr F))) by (subst F'; reflexivity).
  assert (ME : f_metric F' = f_metric F) by (subst F'; reflexivity). assert (HE : f_hetero F' = f_hetero F) by (subst F'; reflexivity).
  clear EF.
  assert (KL : forall s', k_ls (kernel_make s' (move_kernel (st_next s) (m_kernel (f_attr F)))) = move_ls (st_next s) (k_ls (m_kernel (f_attr F))))
    by (intros; destruct (m_kernel (f_attr F)); reflexivity).
  assert (DK : forall m, In m (kernel_params (m_kernel (f_attr F))) -> In m (declared (f_attr F))).
  { intros m Hm. unfold declared. apply in_app_iff. left. destruct (m_kernel (f_attr F)); exact Hm. }
  assert (DL : forall m, In m (ls_elems (k_ls (m_kernel (f_attr F)))) -> In m (declared (f_attr F))).
  { intros m Hm. apply DK. destruct (m_kernel (f_attr F)); cbn [k_ls kernel_params] in *; auto. apply in_app_iff; auto. }
  assert (VAL : forall nm r, In nm (declared (f_attr F)) -> value_at s names x nm r -> reals s' (nm_loc (move_named (st_next s) nm)) = r).
  { intros nm r Hin V. destruct (C nm Hin) as (_ & _ & H). cbv zeta in H. unfold value_at in V. unfold reals.
    destruct (p_fixed (st_cell s (nm_loc nm))); [rewrite H, V; reflexivity|]. destruct H as (r' & D & ->). rewrite V in D. injection D as <-. reflexivity. }
  assert (FAM : forall K, full_lib s' F' = Some K -> match K with LRbf _ => family s F = Infinite | LMatern _ _ p => family s F = formula_for p end).
  { intros K L. unfold full_lib in L. destruct (full_deformation F') as [d|]; [|discriminate]. rewrite AT in L. cbn [model_make move_model m_kernel] in L.
    unfold family. pose proof (trainable_smoothness s F train b n TR) as SMF.
    destruct (m_kernel (f_attr F)) as [lsc|lsc sm cc] eqn:EK; cbn [move_kernel kernel_make] in L.
    - assert (K = LRbf d) as -> by congruence. reflexivity.
    - assert (K = LMatern d (move_named (st_next s) sm) (st_cell s' (nm_loc (move_named (st_next s) sm)))) as -> by congruence.
      destruct (C sm) as (P1 & P2 & P3); [apply DK; rewrite ?EK; cbn [kernel_params]; apply in_app_iff; right; left; reflexivity|].
      cbv zeta in *. rewrite (SMF _ _ _ eq_refl) in P3. rewrite (param_eq _ _ P3 P2 P1). reflexivity. }
  destruct TR' as (_ & (K & L & OK) & _). exists K. split; [exact L|]. split.
  { intros v. apply lk_cov_family; [apply FAM; exact L|]. specialize (FAM K L). destruct K as [d|d sm p]; [congruence|]. rewrite FAM. apply OK. }
  assert (DEF : full_deformation F' = Some (lk_def K)).
  { unfold full_lib in L. destruct (full_deformation F') as [d|]; [|discriminate]. destruct (m_kernel (f_attr F')); injection L as <-; reflexivity. }
  split.
  - intros f l (nm & En & V).
    unfold full_deformation in DEF. rewrite AT in DEF. cbn [model_make move_model m_kernel] in DEF. rewrite KL in DEF.
    destruct (k_ls (m_kernel (f_attr F))) as [n0|v0|v0] eqn:EL; cbn [move_ls] in DEF; [| |discriminate].
    + injection DEF as <-. cbn [scale_of]. assert (n0 = nm) as -> by congruence. unfold kw_or. cbn [dget].
      apply VAL; auto. apply DL. cbn; auto.
    + injection DEF as <-. cbn [scale_of move_vec v_elems]. rewrite map_map.
      rewrite (nth_error_nth (map _ (v_elems v0)) f 0 (x := reals s' (nm_loc (move_named (st_next s) nm)))).
      * apply VAL; auto. apply DL. cbn [ls_elems]. apply (nth_error_In _ f). exact En.
      * rewrite nth_error_map, En. reflexivity.
  - intros y i r V. unfold full_noise. rewrite AT. cbn [model_make move_model m_noise]. unfold noise_value in V.
    destruct (m_noise (f_attr F)) as [z| |] eqn:EN; cbn [move_noise noise_of noise_at].
    + apply VAL; auto. unfold declared. rewrite EN. apply in_app_iff. right. left. reflexivity.
    + rewrite HE. auto.
    + auto.
Qed.

Variable ls : lsolver.
Hypothesis EX : exact_solver ls.
Variable sld : nat -> mat -> R * R.
Variable eps : R.

Lemma objective_simpler s F names x0 bounds s2 F2 names2 x02 bounds2 train targets ix nn N b n c q l kw draws draws2 t t2 x x2 :
  training s F names x0 bounds train N b n c q -> training s2 F2 names2 x02 bounds2 train N b n c q ->
  batch_ok train targets ix nn N b n c q -> loss_kw_ok kw -> scores_vectors l ->
  full_train_tensors F ix nn train targets = Ok t -> full_train_tensors F2 ix nn train targets = Ok t2 ->
  in_box x bounds -> in_box x2 bounds2 -> corresponding s F names x s2 F2 names2 x2 (feature_count train) b n ->
  exists v,
    obj_fn ls sld eps gamma kv s F l kw None draws (tr_pair t) (tr_cross t) (tr_nn_targets t) (tr_targets t) (combine names x) = Ok v /\
    obj_fn ls sld eps gamma kv s2 F2 l kw None draws2 (tr_pair t2) (tr_cross t2) (tr_nn_targets t2) (tr_targets t2) (combine names2 x2) = Ok v.
Proof.
  intros [MO BO PB LF EO SK TR WP _] [MO2 BO2 PB2 LF2 EO2 SK2 TR2 WP2 _] BK KW LS Et Et2 BX BX2 (FM & KI & SC & HS & HN).
  destruct (candidate_value ls EX sld eps gamma kv s F l kw draws train targets ix nn N b n c q names x0 bounds t
    MO BO PB LF EO SK TR WP BK KW LS Et x BX) as (s1 & F1 & v & E1 & O1 & V1 & LV1 & TR1 & WP1).
  destruct (candidate_value ls EX sld eps gamma kv s2 F2 l kw draws2 train targets ix nn N b n c q names2 x02 bounds2 t2
    MO2 BO2 PB2 LF2 EO2 SK2 TR2 WP2 BK KW LS Et2 x2 BX2) as (s3 & F3 & v' & E3 & O3 & V3 & LV3 & TR3 & WP3).
  exists v. split; [exact V1|]. rewrite V3. f_equal.
  destruct (candidate_model s F names x0 bounds x s1 F1 train b n MO LF EO BX E1 O1 TR TR1) as (K & L1 & C1 & S1 & N1).
  destruct (candidate_model s2 F2 names2 x02 bounds2 x2 s3 F3 train b n MO2 LF2 EO2 BX2 E3 O3 TR2 TR3) as (K' & L3 & C3 & S3 & N3).
  assert (CE : forall w, lk_cov gamma kv K' (feature_count train) (reals s3) [] w = lk_cov gamma kv K (feature_count train) (reals s1) [] w).
  { intros w. rewrite C1, C3, <- FM. do 2 f_equal. apply scaled_ext. intros f Hf. destruct (HS f Hf) as (r & A & B).
    rewrite (S1 f r A), (S3 f r B). reflexivity. }
  destruct TR1 as (_ & (K1 & L1' & OK1) & _). assert (K1 = K) as -> by congruence.
  destruct O1 as (_ & _ & _ & _ & _ & KI1 & SC1). destruct O3 as (_ & _ & _ & _ & _ & KI3 & SC3).
  apply (loo_same gamma kv s1 F1 s3 F3 l kw train train targets b n c q q v v' K K'); auto; try congruence.
  - apply well_posed_ns; auto. apply (loo_wp _ _ _ _ c). exact WP1.
  - intros y i j Hy Hi Hj. unfold nbr_matrix, plus_diag. destruct (HN y i Hy Hi) as (r & A & B).
    rewrite (N1 y i r A), (N3 y i r B). f_equal. unfold kcov. apply CE.
  - intros y j Hy Hj. unfold kcov. apply CE.
Qed.

(** The optimum of the richer model is at least as good. *)
Lemma richer_no_worse s F names x0 bounds s2 F2 names2 x02 bounds2 train targets ix nn N b n c q l kw draws draws2 t t2 (opt2 : list R) :
  training s F names x0 bounds train N b n c q -> training s2 F2 names2 x02 bounds2 train N b n c q ->
  batch_ok train targets ix nn N b n c q -> loss_kw_ok kw -> scores_vectors l ->
  full_train_tensors F ix nn train targets = Ok t -> full_train_tensors F2 ix nn train targets = Ok t2 ->
  let obj := fun x => obj_fn ls sld eps gamma kv s F l kw None draws (tr_pair t) (tr_cross t) (tr_nn_targets t) (tr_targets t) (combine names x) in
  let obj2 := fun x => obj_fn ls sld eps gamma kv s2 F2 l kw None draws2 (tr_pair t2) (tr_cross t2) (tr_nn_targets t2) (tr_targets t2) (combine names2 x) in
  (forall x, in_box x bounds -> exists x2, in_box x2 bounds2 /\ corresponding s F names x s2 F2 names2 x2 (feature_count train) b n) ->
  in_box opt2 bounds2 -> (forall y vy vo, in_box y bounds2 -> obj2 y = Ok vy -> obj2 opt2 = Ok vo -> vy <= vo) ->
  forall x, in_box x bounds -> exists v vo, obj x = Ok v /\ obj2 opt2 = Ok vo /\ v <= vo.
Proof.
  intros T1 T2 BK KW LS Et Et2 obj obj2 EMB BO BEST x BX. destruct (EMB x BX) as (x2 & BX2 & CO).
  destruct (objective_simpler s F names x0 bounds s2 F2 names2 x02 bounds2 train targets ix nn N b n c q l kw draws draws2 t t2 x x2
    T1 T2 BK KW LS Et Et2 BX BX2 CO) as (v & V1 & V2).
  destruct T2 as [MO2 BO2 PB2 LF2 EO2 SK2 TR2 WP2 _].
  destruct (candidate_value ls EX sld eps gamma kv s2 F2 l kw draws2 train targets ix nn N b n c q names2 x02 bounds2 t2
    MO2 BO2 PB2 LF2 EO2 SK2 TR2 WP2 BK KW LS Et2 opt2 BO) as (s3 & F3 & vo & _ & _ & V3 & _).
  exists v, vo. split; [exact V1|]. split; [exact V3|]. apply (BEST x2 v vo BX2 V2 V3).
Qed.
End C.
