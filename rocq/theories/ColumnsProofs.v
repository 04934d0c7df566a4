(** Order and units of the feature columns. *)
From Coq Require Import Lia Lra.
From Verif Require Import Base BaseFacts NdModel NdFacts RSum LinAlgModel LinAlgSpec LinAlgFacts
  GPModel NoiseModel MuyGPSModel MuyGPSProofs GPSpec GPTheorems ScaleSpec ScaleProofs TensorModel TensorSpec TensorProofs
  HyperModel HyperSpec NamedModel NamedSpec NamedProofs KernelModel KernelSpec FlowModel FlowSpec FlowProofs PointwiseSpec LibSpec LibProofs
  LossModel LossSpec LossProofs ChassisModel ChassisSpec ChassisProofs ObjectiveProofs MultiModel DriverModel ClassifyModel WorkModel WorkSpec WorkProofs WorkLemmas
  NeighborsModel NeighborsSpec NeighborsProofs BatchProofs BatchLemmas
  TrainModel TrainSpec TrainProofs TrainProofs2 TrainProofs3 BestProofs SimSpec SimProofs UnitsSpec UnitsProofs UnitsProofs2 UnitsProofs3 SimTrainSpec SimTrainProofs
  RelabelProofs ColumnsSpec.
Local Open Scope R_scope.

(** ** Geometry *)
Lemma recoded_features p a t X X' n : recoded p a t X X' n -> feature_count X' = feature_count X.
Proof. intros (_ & S & _). unfold feature_count. rewrite S. reflexivity. Qed.

Definition kind_match (K K' : libkernel) (cur cur' : nat -> R) : Prop :=
  match K, K' with LRbf _, LRbf _ => True | LMatern _ sm f, LMatern _ sm' f' => cur' (nm_loc sm') = cur (nm_loc sm) /\ f' = f | _, _ => False end.

Section Cov.
Variables (gamma : R -> R) (kv : R -> R -> R).
Lemma recoded_cov K K' cur cur' p a t test train test' train' M N :
  kind_match K K' cur cur' ->
  feature_count test = feature_count train -> positive_scales (lk_def K) (feature_count train) cur [] ->
  recoded p a t test test' M -> recoded p a t train train' N ->
  recoded_scales p a (feature_count train) (lk_def K) (lk_def K') cur cur' ->
  same_cov gamma kv K K' cur cur' test train test' train' M N.
Proof.
  intros SM FC POS R1 R2 RS. pose proof (recoded_features _ _ _ _ _ _ R2) as FE. destruct R1 as (_ & _ & U1). destruct R2 as (PM & _ & U2).
  assert (SQ : forall (v v' : nat -> R), (forall f, (f < feature_count train)%nat -> v' (p f) = a f * v f) ->
    scaled_sqdist (feature_count train) (scale_of (lk_def K') cur' []) v' (fun _ => 0) =
    scaled_sqdist (feature_count train) (scale_of (lk_def K) cur []) v (fun _ => 0)).
  { intros v v' H. unfold scaled_sqdist.
    rewrite <- (rsum_perm _ p (fun f => ((v' f - 0) / scale_of (lk_def K') cur' [] f) ^ 2) PM). apply rsum_ext. intros f Hf.
    destruct (RS f Hf) as [P ->]. rewrite H by auto. pose proof (POS f Hf). field. lra. }
  assert (CE : forall v v', (forall f, (f < feature_count train)%nat -> v' (p f) = a f * v f) ->
    lk_cov gamma kv K' (feature_count train) cur' [] v' = lk_cov gamma kv K (feature_count train) cur [] v).
  { intros v v' H. specialize (SQ v v' H). destruct K as [d|d sm f], K' as [d'|d' sm' f']; try contradiction; cbn [lk_cov lk_def] in *.
    - unfold rbf_cov. rewrite SQ. reflexivity.
    - destruct SM as [SM ->]. unfold matern_cov. rewrite SQ. unfold kw_or. cbn [dget]. rewrite SM. reflexivity. }
  split; intros x y Hx Hy; unfold kcov; rewrite FE; apply CE; intros f Hf; rewrite ?U1, ?U2 by (rewrite ?FC; auto); ring.
Qed.
End Cov.

Lemma recoded_similar c p t test train test' train' M N : feature_count test = feature_count train ->
  recoded p (fun _ => c) t test test' M -> recoded p (fun _ => c) t train train' N -> similar c test train test' train' M N.
Proof.
  intros FC R1 R2. pose proof (recoded_features _ _ _ _ _ _ R2) as FE. destruct R1 as (_ & _ & U1). destruct R2 as (PM & _ & U2).
  split; intros x y Hx Hy; unfold row_dist, sqdist; rewrite FE.
  - rewrite <- rsum_scal. rewrite <- (rsum_perm _ p (fun f => (feature test' x f - feature train' y f) ^ 2) PM). apply rsum_ext. intros f Hf.
    rewrite U1, U2 by (rewrite ?FC; auto). ring.
  - rewrite <- rsum_scal. rewrite <- (rsum_perm _ p (fun f => (feature train' x f - feature train' y f) ^ 2) PM). apply rsum_ext. intros f Hf.
    rewrite !U2 by auto. ring.
Qed.

Lemma recoded_differ p a t X X' N i j : recoded p a t X X' N -> (forall f, (f < feature_count X)%nat -> 0 < a f) -> (i < N)%nat -> (j < N)%nat ->
  (exists f, (f < feature_count X)%nat /\ feature X i f <> feature X j f) -> exists f, (f < feature_count X')%nat /\ feature X' i f <> feature X' j f.
Proof.
  intros R P Hi Hj (f & Hf & NE). pose proof (recoded_features _ _ _ _ _ _ R) as FE. destruct R as ((PM & _) & _ & U). exists (p f).
  split; [rewrite FE; auto|]. rewrite !U by auto. intros E. apply NE. pose proof (P f Hf). apply (Rmult_eq_reg_l (a f)); lra.
Qed.

Lemma recoded_ok K F cur cur' p a : perm_on F p -> lk_ok K F cur [] -> recoded_scales p a F (lk_def K) (lk_def K) cur cur' -> lk_ok K F cur' [].
Proof.
  intros PM (A & B & C & D) RS. split; [exact A|]. split; [exact B|]. split; [|exact D].
  intros g Hg. destruct (perm_inverse F p PM g Hg) as (f & Hf & <-). destruct (RS f Hf) as [P ->]. apply Rmult_lt_0_compat; auto.
Qed.

(** ** Predictions *)
Section Any.
Variables (gamma : R -> R) (kv : R -> R -> R).
Variable ls : lsolver.
Hypothesis EX : exact_solver ls.

Lemma smoothness_self K cur cur' : same_smoothness K cur cur' -> kind_match K K cur cur'.
Proof. destruct K; cbn; auto. Qed.

Lemma recoded_indices g K cur cur' nn test train test' train' targets N M n q ex p a t :
  lk_ok K (feature_count train) cur [] -> same_smoothness K cur cur' ->
  recoded_scales p a (feature_count train) (lk_def K) (lk_def K) cur cur' ->
  recoded p a t test test' M -> recoded p a t train train' N ->
  dataset test M -> dataset train N -> ndim test = ndim train -> feature_count test = feature_count train ->
  shape targets = N :: ex -> no_coincidence ex [n] ->
  shape (gp_Kout g) = [] -> at_ (gp_Kout g) [] = 1 -> 0 <= gp_var_scale g ->
  index_matrix nn M n N q -> noise_fits (gp_noise g) M n -> well_posed (gp_noise g) train M n q ->
  exists mean var mean' var',
    regress_from_indices ls (lib_model gamma kv g K cur) (arange M) nn test train targets = Ok (mean, var) /\
    regress_from_indices ls (lib_model gamma kv g K cur') (arange M) nn test' train' targets = Ok (mean', var') /\
    forall x, (x < M)%nat -> at_ var' [x] = at_ var [x] /\ forall e, inb ex e -> at_ mean' (x :: e) = at_ mean (x :: e).
Proof.
  intros OK SM RS U1 U2 D1 D2 ND FC HT NC SK K1 SC IM NF WP.
  pose proof U1 as (_ & ST & _). pose proof U2 as (PM & STr & _). pose proof (recoded_features _ _ _ _ _ _ U2) as FE.
  apply (same_indices gamma kv ls EX g K K cur cur' nn test train test' train' targets N M n q ex); auto.
  - rewrite FE. apply (recoded_ok K _ cur cur' p a); auto.
  - unfold dataset. rewrite ST. exact D1.
  - unfold dataset. rewrite STr. exact D2.
  - unfold ndim. rewrite ST, STr. exact ND.
  - unfold feature_count. rewrite ST, STr. exact FC.
  - intros x Hx. destruct (WP x Hx) as [P|[P D]]; [left; exact P|right; split; [exact P|]].
    intros i j Hi Hj NE. apply (recoded_differ p a t train train' N (q x i) (q x j) U2 (fun f Hf => proj1 (RS f Hf))
      (proj2 (proj2 IM x i Hx Hi)) (proj2 (proj2 IM x j Hx Hj))). apply D; auto.
  - exact (recoded_cov gamma kv K K cur cur' p a t test train test' train' M N (smoothness_self K cur cur' SM) FC (proj1 (proj2 (proj2 OK))) U1 U2 RS).
Qed.

Variable knn : dict nnval -> list point -> point -> nat -> list (nat * R).
Variable hnsw : nnval -> list point -> point -> nat -> list (nat * R).
Variable dist : dict nnval -> point -> point -> R.
Hypothesis Hsk : sklearn_ok knn dist.

Lemma recoded_any en method kw w en' method' kw' w' g K cur cur' test train test' train' targets N M n ex c p t :
  lower method = "exact"%string -> euclidean_kw kw -> nn_init en (rows_of train) n method kw = Ok w ->
  lower method' = "exact"%string -> euclidean_kw kw' -> nn_init en' (rows_of train') n method' kw' = Ok w' -> (0 < n <= N /\ 0 < M)%nat ->
  lk_ok K (feature_count train) cur [] -> same_smoothness K cur cur' -> 0 < c ->
  recoded_scales p (fun _ => c) (feature_count train) (lk_def K) (lk_def K) cur cur' ->
  recoded p (fun _ => c) t test test' M -> recoded p (fun _ => c) t train train' N ->
  dataset test M -> dataset train N -> ndim test = ndim train -> feature_count test = feature_count train ->
  shape targets = N :: ex -> no_coincidence ex [n] ->
  shape (gp_Kout g) = [] -> at_ (gp_Kout g) [] = 1 -> 0 <= gp_var_scale g ->
  noise_fits (gp_noise g) M n -> sound_noise (gp_noise g) train N M n ->
  exists mean var mean' var',
    regress_any ls knn hnsw (Univariate (lib_model gamma kv g K cur)) test train w targets = Ok (mean, var) /\
    regress_any ls knn hnsw (Univariate (lib_model gamma kv g K cur')) test' train' w' targets = Ok (mean', var') /\
    forall x, (x < M)%nat -> no_ties test train N x ->
      at_ var' [x] = at_ var [x] /\ forall e, inb ex e -> at_ mean' (x :: e) = at_ mean (x :: e).
Proof.
  intros Hm He Hi Hm' He' Hi' Hn OK SM C RS U1 U2 D1 D2 ND FC HT NC SK K1 SC NF SN.
  pose proof U1 as (_ & ST & _). pose proof U2 as (PM & STr & _). pose proof (recoded_features _ _ _ _ _ _ U2) as FE.
  apply (same_any gamma kv ls EX knn hnsw dist Hsk en method kw w en' method' kw' w' g K K cur cur' test train test' train' targets N M n ex c); auto.
  - rewrite FE. apply (recoded_ok K _ cur cur' p (fun _ => c)); auto.
  - unfold dataset. rewrite ST. exact D1.
  - unfold dataset. rewrite STr. exact D2.
  - unfold ndim. rewrite ST, STr. exact ND.
  - unfold feature_count. rewrite ST, STr. exact FC.
  - apply (recoded_similar c p t); auto.
  - exact (recoded_cov gamma kv K K cur cur' p (fun _ => c) t test train test' train' M N (smoothness_self K cur cur' SM) FC (proj1 (proj2 (proj2 OK))) U1 U2 RS).
Qed.
End Any.

(** ** The parameters of two candidates of an anisotropic model *)
Lemma nodup_app_disjoint {A} (l1 l2 : list A) x : NoDup (l1 ++ l2) -> In x l1 -> In x l2 -> False.
Proof.
  induction l1 as [|y l1 IH]; intros ND H1 H2; [contradiction|]. cbn in ND. inversion ND; subst.
  destruct H1 as [->|H1]; [|auto]. apply H3. apply in_app_iff. auto.
Qed.

Lemma recoded_candidates s F names x0 bounds x x' s1 F1 s2 F2 v K p a : model_ok s F -> positive_bounds s F ->
  get_opt_params s (f_attr F) = Ok (names, x0, bounds) -> in_box x bounds -> in_box x' bounds ->
  new_muygps s F names bounds (combine names (map Fin x)) = Ok (s1, F1) -> optimized_model s F (combine names (map Fin x)) s1 F1 ->
  new_muygps s F names bounds (combine names (map Fin x')) = Ok (s2, F2) -> optimized_model s F (combine names (map Fin x')) s2 F2 ->
  k_ls (m_kernel (f_attr F)) = LSVector v -> (forall ls sm c, m_kernel (f_attr F) = KMatern ls sm c -> p_fixed (st_cell s (nm_loc sm)) = true) ->
  (forall e, In e (v_elems v) -> p_fixed (st_cell s (nm_loc e)) = false) ->
  perm_on (List.length (v_elems v)) p -> (forall f, (f < List.length (v_elems v))%nat -> 0 < a f) ->
  recoded_candidate p a (v_elems v) names x x' ->
  full_lib s1 F1 = Some K ->
  full_lib s2 F2 = Some K /\ full_noise s2 F2 = full_noise s1 F1 /\ same_smoothness K (reals s1) (reals s2) /\
  recoded_scales p a (List.length (v_elems v)) (lk_def K) (lk_def K) (reals s1) (reals s2).
Proof.
  intros MO PB EO BX BX' E1 O1 E2 O2 LSS SMF FREE PM PA [RC1 RC2] L1.
  pose proof (fun nm H => candidate_at s F names x0 bounds x s1 F1 nm MO EO BX E1 O1 H) as C1.
  pose proof (fun nm H => candidate_at s F names x0 bounds x' s2 F2 nm MO EO BX' E2 O2 H) as C2.
  pose proof (new_muygps_form _ _ _ _ _ _ _ E1) as EF1. pose proof (new_muygps_form _ _ _ _ _ _ _ E2) as EF2.
  assert (AT1 : f_attr F1 = model_make s1 (move_model (st_next s) (f_attr F))) by (subst F1; reflexivity).
  assert (AT2 : f_attr F2 = model_make s2 (move_model (st_next s) (f_attr F))) by (subst F2; reflexivity).
  assert (ME1 : f_metric F1 = f_metric F) by (subst F1; reflexivity). assert (ME2 : f_metric F2 = f_metric F) by (subst F2; reflexivity).
  assert (HE1 : f_hetero F1 = f_hetero F) by (subst F1; reflexivity). assert (HE2 : f_hetero F2 = f_hetero F) by (subst F2; reflexivity).
  clear EF1 EF2.
  assert (KL : forall s', k_ls (kernel_make s' (move_kernel (st_next s) (m_kernel (f_attr F)))) = move_ls (st_next s) (k_ls (m_kernel (f_attr F))))
    by (intros; destruct (m_kernel (f_attr F)); reflexivity).
  set (mv := move_vec (st_next s) v).
  assert (DE1 : full_deformation F1 = Some (Aniso (f_metric F) mv)).
  { unfold full_deformation. rewrite AT1. cbn [model_make move_model m_kernel]. rewrite KL, LSS, ME1. reflexivity. }
  assert (DE2 : full_deformation F2 = Some (Aniso (f_metric F) mv)).
  { unfold full_deformation. rewrite AT2. cbn [model_make move_model m_kernel]. rewrite KL, LSS, ME2. reflexivity. }
  assert (DK : forall m, In m (kernel_params (m_kernel (f_attr F))) -> In m (declared (f_attr F))).
  { intros m Hm. unfold declared. apply in_app_iff. left. destruct (m_kernel (f_attr F)); exact Hm. }
  assert (ILS : forall e, In e (v_elems v) -> In e (declared (f_attr F))).
  { intros e He. apply DK. destruct (m_kernel (f_attr F)); cbn [kernel_params k_ls] in *; subst; cbn [ls_elems]; [exact He|apply in_app_iff; left; exact He]. }
  assert (ND : NoDup (map nm_name (declared (f_attr F)))) by (apply built_nodup; apply MO).
  assert (OTHER : forall m, In m (declared (f_attr F)) -> (forall e, In e (v_elems v) -> nm_name e <> nm_name m) ->
     st_cell s2 (nm_loc (move_named (st_next s) m)) = st_cell s1 (nm_loc (move_named (st_next s) m))).
  { intros m Hm NE. destruct (C1 m Hm) as (P1 & B1 & V1). destruct (C2 m Hm) as (P2 & B2 & V2). cbv zeta in *.
    apply param_eq; try congruence. destruct (p_fixed (st_cell s (nm_loc m))); [congruence|].
    destruct V1 as (u & D1 & ->). destruct V2 as (u' & D2 & ->). rewrite (RC2 (nm_name m) NE), D1 in D2. injection D2 as <-. reflexivity. }
  assert (VAL : forall f e e', nth_error (v_elems v) f = Some e -> nth_error (v_elems v) (p f) = Some e' ->
     reals s2 (nm_loc (move_named (st_next s) e')) = a f * reals s1 (nm_loc (move_named (st_next s) e))).
  { intros f e e' He He'. destruct (RC1 f e e' He He') as (u & D1 & D2). apply nth_error_In in He, He'.
    destruct (C1 e (ILS e He)) as (_ & _ & V1). destruct (C2 e' (ILS e' He')) as (_ & _ & V2). cbv zeta in *.
    rewrite (FREE e He) in V1. rewrite (FREE e' He') in V2. destruct V1 as (u1 & D1' & V1). destruct V2 as (u2 & D2' & V2).
    unfold reals. rewrite V1, V2. rewrite D1 in D1'. rewrite D2 in D2'. injection D1' as <-. injection D2' as <-. reflexivity. }
  assert (RS : recoded_scales p a (List.length (v_elems v)) (Aniso (f_metric F) mv) (Aniso (f_metric F) mv) (reals s1) (reals s2)).
  { assert (LE : v_elems mv = map (move_named (st_next s)) (v_elems v)) by reflexivity.
    intros f Hf. split; [auto|]. cbn [scale_of]. rewrite LE. rewrite !map_map.
    destruct (nth_error (v_elems v) f) as [e|] eqn:He; [|apply nth_error_None in He; lia].
    pose proof (proj1 PM f Hf) as Hpf. destruct (nth_error (v_elems v) (p f)) as [e'|] eqn:He'; [|apply nth_error_None in He'; lia].
    assert (GET : forall s' g e0, nth_error (v_elems v) g = Some e0 ->
       nth g (map (fun z => kw_or [] (nm_name (move_named (st_next s) z)) (reals s' (nm_loc (move_named (st_next s) z)))) (v_elems v)) 0 =
       reals s' (nm_loc (move_named (st_next s) e0))).
    { intros s' g e0 H. apply nth_error_nth. rewrite nth_error_map, H. reflexivity. }
    rewrite (GET s2 (p f) e' He'), (GET s1 f e He). apply (VAL f e e' He He'). }
  unfold full_lib in *. rewrite DE1 in L1. rewrite DE2. rewrite AT1 in L1. rewrite AT2. cbn [model_make move_model m_kernel] in *.
  assert (NO : full_noise s2 F2 = full_noise s1 F1).
  { unfold full_noise. rewrite AT1, AT2. cbn [model_make move_model m_noise]. destruct (m_noise (f_attr F)) as [z| |] eqn:EN; cbn [move_noise noise_of]; [|congruence|reflexivity].
    assert (Iz : In z (declared (f_attr F))) by (unfold declared; rewrite EN; apply in_app_iff; right; left; reflexivity).
    unfold reals. rewrite OTHER; auto.
    intros e He C. unfold declared in ND. rewrite EN, map_app in ND. cbn [map] in ND.
    apply (nodup_app_disjoint _ _ (nm_name e) ND); [|left; auto]. apply in_map.
    destruct (m_kernel (f_attr F)); cbn [k_ls] in LSS; subst; cbn [kernel_params ls_elems]; [exact He|apply in_app_iff; left; exact He]. }
  destruct (m_kernel (f_attr F)) as [lsc|lsc sm cc] eqn:EK; cbn [move_kernel kernel_make] in *; injection L1 as <-; cbn [k_ls] in LSS; subst lsc.
  - split; [reflexivity|]. split; [exact NO|]. split; [exact Logic.I|exact RS].
  - assert (Ism : In sm (declared (f_attr F))) by (apply DK; cbn [kernel_params]; apply in_app_iff; right; left; reflexivity).
    assert (SC : st_cell s2 (nm_loc (move_named (st_next s) sm)) = st_cell s1 (nm_loc (move_named (st_next s) sm))).
    { assert (FX : p_fixed (st_cell s (nm_loc sm)) = true) by (apply (SMF _ _ _ eq_refl)).
      destruct (C1 sm Ism) as (P1 & B1 & V1). destruct (C2 sm Ism) as (P2 & B2 & V2). cbv zeta in *. rewrite FX in V1, V2.
      apply param_eq; congruence. }
    rewrite SC. split; [reflexivity|]. split; [exact NO|]. split; [|exact RS].
    cbn [same_smoothness]. unfold reals. rewrite SC. reflexivity.
Qed.

Section Train.
Variable ls : lsolver.
Hypothesis EX : exact_solver ls.
Variable slogdet : nat -> mat -> R * R.
Variable eps : R.
Variables (gamma : R -> R) (kv : R -> R -> R).

Lemma objective_recoded s F l kw draws train train' targets ix nn N b n c q names x0 bounds t t' v p a sh :
  model_ok s F -> bounds_ok s F -> positive_bounds s F -> k_ls (m_kernel (f_attr F)) = LSVector v ->
  (forall e, In e (v_elems v) -> p_fixed (st_cell s (nm_loc e)) = false) -> leading_free s (k_ls (m_kernel (f_attr F))) ->
  get_opt_params s (f_attr F) = Ok (names, x0, bounds) -> (f_kind F = FixedScale \/ ~ In "noise"%string names) ->
  trainable s F train b n -> loo_well_posed (full_noise s F) train b n c q ->
  batch_ok train targets ix nn N b n c q -> loss_kw_ok kw -> scores_vectors l ->
  recoded p a sh train train' N -> (forall f, (f < feature_count train)%nat -> 0 < a f) ->
  full_train_tensors F ix nn train targets = Ok t -> full_train_tensors F ix nn train' targets = Ok t' ->
  forall x x', in_box x bounds -> in_box x' bounds -> recoded_candidate p a (v_elems v) names x x' -> exists y,
    obj_fn ls slogdet eps gamma kv s F l kw None draws (tr_pair t) (tr_cross t) (tr_nn_targets t) (tr_targets t) (combine names x) = Ok y /\
    obj_fn ls slogdet eps gamma kv s F l kw None draws (tr_pair t') (tr_cross t') (tr_nn_targets t') (tr_targets t') (combine names x') = Ok y.
Proof.
  intros MO BO PB LSS FREE LF EO SK TR WP BK KW LS RE PA Et Et' x x' BX BX' RC.
  pose proof RE as (PM & SHP & U). pose proof (recoded_features _ _ _ _ _ _ RE) as FE.
  pose proof TR as (B & (K0 & L0 & OK0) & NF & KI).
  assert (LV : List.length (v_elems v) = feature_count train).
  { destruct OK0 as (DO & _). unfold full_lib, full_deformation in L0. rewrite LSS in L0.
    destruct (m_kernel (f_attr F)); injection L0 as <-; cbn [lk_def deformation_ok] in DO;
      destruct DO as (s0 & srcs & j & EV & LE & _); rewrite EV, <- LE; apply vec_init_elems. }
  assert (TR' : trainable s F train' b n).
  { split; [exact B|]. split; [|auto]. exists K0. rewrite FE. auto. }
  pose proof BK as (D & HT & Hb & Hn & SIx & HC & IM).
  assert (BK' : batch_ok train' targets ix nn N b n c q) by (split; [unfold dataset; rewrite SHP; exact D|auto 10]).
  assert (WP' : loo_well_posed (full_noise s F) train' b n c q).
  { intros y Hy. destruct (WP y Hy) as [P|(P & D1 & D2)]; [left; exact P|right; split; [exact P|split]].
    - intros i j Hi Hj NE. apply (recoded_differ p a sh train train' N (q y i) (q y j) RE PA (proj2 (proj2 IM y i Hy Hi)) (proj2 (proj2 IM y j Hy Hj))). apply D1; auto.
    - intros i Hi. apply (recoded_differ p a sh train train' N (c y) (q y i) RE PA (proj2 (HC y Hy)) (proj2 (proj2 IM y i Hy Hi))). apply D2; auto. }
  destruct (candidate_value ls EX slogdet eps gamma kv s F l kw draws train targets ix nn N b n c q names x0 bounds t
    MO BO PB LF EO SK TR WP BK KW LS Et x BX) as (s1 & F1 & y & E1 & O1 & V1 & LV1 & TR1 & WP1).
  destruct (candidate_value ls EX slogdet eps gamma kv s F l kw draws train' targets ix nn N b n c q names x0 bounds t'
    MO BO PB LF EO SK TR' WP' BK' KW LS Et' x' BX') as (s2 & F2 & y' & E2 & O2 & V2 & LV2 & TR2 & WP2).
  exists y. split; [exact V1|]. rewrite V2. f_equal.
  pose proof TR1 as (B1 & (K & L1 & OK) & _).
  rewrite <- LV in PA, PM.
  destruct (recoded_candidates s F names x0 bounds x x' s1 F1 s2 F2 v K p a MO PB EO BX BX' E1 O1 E2 O2 LSS (trainable_smoothness s F train b n TR) FREE PM PA RC L1)
    as (L2 & NO & SM & RS). rewrite LV in RS.
  destruct (recoded_cov gamma kv K K (reals s1) (reals s2) p a sh train train train' train' N N (smoothness_self K _ _ SM) eq_refl (proj1 (proj2 (proj2 OK))) RE RE RS) as [SA _].
  destruct O1 as (_ & _ & _ & _ & _ & KI1 & SC1). destruct O2 as (_ & _ & _ & _ & _ & KI2 & SC2).
  assert (HC2 : forall z, (z < b)%nat -> (c z < N)%nat) by (intros z Hz; apply HC; auto).
  assert (HQ : forall z j, (z < b)%nat -> (j < n)%nat -> (q z j < N)%nat) by (intros z j Hz Hj; apply (proj2 IM z j Hz Hj)).
  apply (loo_same gamma kv s1 F1 s2 F2 l kw train train' targets b n c q q y y' K K); auto; try congruence.
  - apply well_posed_ns; auto. apply (loo_wp _ _ _ _ c). exact WP1.
  - intros z i j Hz Hi Hj. rewrite NO. unfold nbr_matrix, plus_diag. rewrite SA by auto. reflexivity.
Qed.
End Train.
