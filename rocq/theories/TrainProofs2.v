(** Proofs about training from data: candidates, the selected model and the convenience function. *)
From Coq Require Import Lia Lra.
From Verif Require Import Base BaseFacts NdModel NdFacts RSum LinAlgModel LinAlgSpec LinAlgFacts
  GPModel NoiseModel MuyGPSModel MuyGPSProofs GPSpec GPTheorems ScaleSpec ScaleProofs TensorModel TensorSpec TensorProofs
  HyperModel HyperSpec NamedModel NamedSpec NamedProofs KernelModel KernelSpec FlowModel FlowSpec FlowProofs PointwiseSpec LibSpec LibProofs
  LossModel LossSpec LossProofs ChassisModel ChassisSpec ChassisProofs ObjectiveProofs WorkModel WorkSpec WorkProofs
  NeighborsModel NeighborsSpec NeighborsProofs
  TrainModel TrainSpec TrainProofs.
Local Open Scope R_scope.

(** ** The model built for a candidate *)
Lemma vec_init_from_move k name srcs : forall s s' i, st_next s' = (st_next s + k)%nat ->
  map (move_named k) (snd (vec_init_from s name i srcs)) = snd (vec_init_from s' name i srcs).
Proof.
  induction srcs as [|a srcs IH]; intros s s' i E; [reflexivity|]. cbn [vec_init_from named_init].
  specialize (IH (st_new s (param_set (mkParam (Fin 0) (Fin 0, Fin 0) true) (st_cell s a)))
                 (st_new s' (param_set (mkParam (Fin 0) (Fin 0, Fin 0) true) (st_cell s' a))) (S i)).
  destruct (vec_init_from (st_new s _) name (S i) srcs) as [s2 l]. destruct (vec_init_from (st_new s' _) name (S i) srcs) as [s2' l'].
  cbn [snd map] in *. rewrite IH by (cbn [st_new st_next]; lia). f_equal. unfold move_named. cbn [nm_name nm_loc]. f_equal. lia.
Qed.
Lemma vec_init_move k s name srcs : exists s', move_vec k (snd (vec_init s name srcs)) = snd (vec_init s' name srcs).
Proof.
  exists (mkStore (st_next s + k) (st_cell s)). unfold vec_init.
  pose proof (vec_init_from_move k name srcs s (mkStore (st_next s + k) (st_cell s)) 0 eq_refl) as E.
  destruct (vec_init_from s name 0 srcs) as [s2 l]. destruct (vec_init_from (mkStore (st_next s + k) (st_cell s)) name 0 srcs) as [s3 l'].
  cbn [snd] in *. unfold move_vec. cbn [v_name v_elems]. rewrite E. reflexivity.
Qed.

Section Cand.
Variables (s : store) (F : full) (names : list string) (x0 : list num) (bounds : list (num * num)) (x : list R).
Hypothesis MO : model_ok s F.
Hypothesis PB : positive_bounds s F.
Hypothesis EO : get_opt_params s (f_attr F) = Ok (names, x0, bounds).
Hypothesis LEN : List.length x = List.length names.
Hypothesis BOX : in_box x bounds.

Lemma candidate_positive s' n n' : In n (declared (f_attr F)) -> p_fixed (st_cell s (nm_loc n)) = false ->
  optimized s s' (combine names (map Fin x)) n n' -> 0 < reals s' (nm_loc n').
Proof.
  intros Hin Hf (_ & _ & _ & _ & Hv). destruct MO as (Hb & Hn & _). pose proof EO as Eo. pose proof BOX as HB.
  rewrite get_opt_params_eq in Eo by assumption. injection Eo as E1 E2 E3.
  set (L := filter (NamedSpec.free s) (declared (f_attr F))) in *.
  assert (NDn : NoDup (map nm_name L)).
  { pose proof (built_nodup _ Hb) as ND. clear -ND. unfold L.
    induction (declared (f_attr F)) as [|a l IH]; simpl in *; [constructor|]. inversion ND; subst.
    destruct (NamedSpec.free s a); simpl; auto. constructor; auto. intros C. apply H1.
    apply in_map_iff in C. destruct C as [y [<- Hy]]. apply filter_In in Hy. apply in_map. tauto. }
  rewrite Hf in Hv. destruct Hv as (v & Hd & Hc & _). rewrite dget_combine_fin in Hd.
  destruct (dget (combine names x) (nm_name n)) as [r|] eqn:E; [|discriminate]. cbn in Hd. injection Hd as <-.
  assert (HnL : In n L) by (apply filter_In; split; [assumption|unfold NamedSpec.free; rewrite Hf; reflexivity]).
  rewrite <- E3 in HB. rewrite <- E1 in E.
  destruct (box_lookup s L x n r HB NDn HnL E) as [B1 B2].
  unfold reals. rewrite (clamped_inside _ _ _ _ Hc B1 B2). cbn [real_of].
  destruct (PB n Hin Hf) as (l & El & Hl). rewrite El in B1.
  destruct (Rlt_le_dec r l) as [C|C]; [exfalso; apply B1; constructor; exact C|lra].
Qed.

Lemma candidate_trainable s' F' train b n :
  new_muygps s F names bounds (combine names (map Fin x)) = Ok (s', F') ->
  optimized_model s F (combine names (map Fin x)) s' F' ->
  trainable s F train b n ->
  trainable s' F' train b n /\
  (forall c q, loo_well_posed (full_noise s F) train b n c q -> loo_well_posed (full_noise s' F') train b n c q) /\
  (forall ix nn targets, full_train_tensors F' ix nn train targets = full_train_tensors F ix nn train targets).
Proof.
  intros E O (B & (K & L & OK) & NF & KI).
  pose proof (new_muygps_form _ _ _ _ _ _ _ E) as EF. destruct O as (_ & HO & _).
  assert (AT : f_attr F' = model_make s' (move_model (st_next s) (f_attr F))) by (subst F'; reflexivity).
  rewrite AT, declared_make, declared_move in HO. pose proof (Forall2_map_in _ _ _ HO) as HO'. clear HO.
  assert (KN : f_kind F' = f_kind F) by (subst F'; reflexivity).
  assert (MT : f_metric F' = f_metric F) by (subst F'; reflexivity).
  assert (HT : f_hetero F' = f_hetero F) by (subst F'; reflexivity).
  assert (BD : f_bound F' = f_attr F') by (subst F'; reflexivity).
  assert (POS : forall nm, In nm (declared (f_attr F)) -> 0 < reals s (nm_loc nm) -> 0 < reals s' (nm_loc (move_named (st_next s) nm))).
  { intros nm Hin H. destruct (p_fixed (st_cell s (nm_loc nm))) eqn:Hf.
    - destruct (HO' nm Hin) as (_ & _ & _ & _ & V). rewrite Hf in V. unfold reals. rewrite V. exact H.
    - apply (candidate_positive s' nm); auto. }
  assert (DK : forall nm, In nm (kernel_params (m_kernel (f_attr F))) -> In nm (declared (f_attr F))).
  { intros nm Hn. unfold declared. apply in_app_iff. left. destruct (m_kernel (f_attr F)); exact Hn. }
  assert (DEF : forall d, full_deformation F = Some d -> exists d', full_deformation F' = Some d' /\
     metric_of d' = metric_of d /\
     (deformation_ok d (feature_count train) [] -> deformation_ok d' (feature_count train) []) /\
     (deformation_ok d (feature_count train) [] -> positive_scales d (feature_count train) (reals s) [] -> positive_scales d' (feature_count train) (reals s') []) /\
     (forall ix nn, deform_crosswise d' train train ix nn = deform_crosswise d train train ix nn /\
                    deform_pairwise d' train nn = deform_pairwise d train nn)).
  { intros d Ed. unfold full_deformation in *. rewrite AT. cbn [model_make move_model m_kernel].
    assert (KL : k_ls (kernel_make s' (move_kernel (st_next s) (m_kernel (f_attr F)))) = move_ls (st_next s) (k_ls (m_kernel (f_attr F))))
      by (destruct (m_kernel (f_attr F)); reflexivity).
    rewrite KL. assert (LI : forall nm, In nm (ls_elems (k_ls (m_kernel (f_attr F)))) -> In nm (declared (f_attr F))).
    { intros nm Hn. apply DK. destruct (m_kernel (f_attr F)); cbn [kernel_params k_ls] in *; [exact Hn|apply in_app_iff; auto]. }
    destruct (k_ls (m_kernel (f_attr F))) as [nm|v|v]; cbn [move_ls]; try discriminate; injection Ed as <-; rewrite MT.
    - exists (Iso (f_metric F) (move_named (st_next s) nm)). repeat split; auto.
      intros _ PS f Hf. specialize (PS f Hf). cbn [scale_of kw_or dget] in *. unfold kw_or in *. cbn [dget] in *.
      apply POS; auto. apply LI. left. reflexivity.
    - exists (Aniso (f_metric F) (move_vec (st_next s) v)). split; [reflexivity|]. split; [reflexivity|]. split; [|split; [|split; reflexivity]].
      + intros (s0 & srcs & j & -> & H1 & H2 & H3 & H4). destruct (vec_init_move (st_next s) s0 "length_scale" srcs) as [s1 E1].
        exists s1, srcs, j. auto.
      + intros (s0 & srcs & j & Ev & H1 & _) PS f Hf. specialize (PS f Hf). cbn [scale_of move_vec v_elems] in *.
        assert (LE : List.length (v_elems v) = feature_count train).
        { rewrite Ev. destruct (vec_init_elems s0 "length_scale" srcs) as (_ & EN & _).
          apply (f_equal (@List.length string)) in EN. rewrite !map_length, seq_length in EN. congruence. }
        rewrite map_map. set (dflt := mkNamed "" O).
        rewrite (nth_indep _ 0 ((fun e => kw_or [] (nm_name (move_named (st_next s) e)) (reals s' (nm_loc (move_named (st_next s) e)))) dflt))
          by (rewrite map_length; lia).
        rewrite (nth_indep _ 0 ((fun e => kw_or [] (nm_name e) (reals s (nm_loc e))) dflt)) in PS by (rewrite map_length; lia).
        rewrite (map_nth (fun e => kw_or [] (nm_name (move_named (st_next s) e)) (reals s' (nm_loc (move_named (st_next s) e))))).
        rewrite (map_nth (fun e => kw_or [] (nm_name e) (reals s (nm_loc e)))) in PS. unfold kw_or in *. cbn [dget] in *.
        apply POS; auto. apply LI. cbn [ls_elems]. apply nth_In. lia. }
  split; [|split].
  - split; [rewrite BD, AT; unfold model_make; cbn [m_kernel m_noise]; f_equal;
            destruct (m_kernel (move_model (st_next s) (f_attr F))); reflexivity|].
    split; [|split; [|rewrite KN; exact KI]].
    + unfold full_lib in *. destruct (full_deformation F) as [d|] eqn:Ed; [|discriminate].
      destruct (DEF d eq_refl) as (d' & Ed' & M & D1 & D2 & _). rewrite Ed'. rewrite AT. cbn [model_make move_model m_kernel].
      destruct (m_kernel (f_attr F)) as [lsc|lsc sm cc] eqn:EK; cbn [move_kernel kernel_make]; injection L as <-;
        destruct OK as (O1 & O2 & O3 & O4); cbn [lk_def] in *.
      * eexists. split; [reflexivity|]. repeat split; auto; cbn [lk_def]; auto. rewrite M. exact O4.
      * eexists. split; [reflexivity|]. destruct O4 as (O4 & O5 & O6).
        split; [auto|]. split; [auto|]. split; [cbn [lk_def]; auto|]. rewrite M. split; [exact O4|]. split; [exact O5|].
        assert (IS : In sm (declared (f_attr F))).
        { apply DK. cbn [kernel_params]. apply in_app_iff. right. left. reflexivity. }
        destruct (HO' sm IS) as (_ & _ & PF & _ & V). revert O6. unfold formula_for.
        change (nm_loc (move_named (st_next s) sm)) with (nm_loc (move_named (st_next s) sm)). rewrite PF.
        destruct (p_fixed (st_cell s (nm_loc sm))); [rewrite V; auto|congruence].
    + unfold full_noise in *. rewrite AT. cbn [model_make move_model m_noise].
      destruct (m_noise (f_attr F)); cbn [move_noise noise_of noise_fits] in *; rewrite ?HT; auto.
  - intros c q WP y Hy. destruct MO as (_ & NN & _).
    unfold full_noise in *. rewrite AT. cbn [model_make move_model m_noise].
    destruct (m_noise (f_attr F)) as [nm| |] eqn:EN; cbn [move_noise noise_of] in *; [| |contradiction NN; reflexivity].
    + destruct (p_fixed (st_cell s (nm_loc nm))) eqn:Hf.
      * assert (V : reals s' (nm_loc (move_named (st_next s) nm)) = reals s (nm_loc nm)).
        { destruct (HO' nm) as (_ & _ & _ & _ & V); [unfold declared; rewrite EN; apply in_app_iff; right; left; reflexivity|].
          rewrite Hf in V. unfold reals. rewrite V. reflexivity. }
        rewrite V. apply WP; auto.
      * left. intros i Hi. cbn [noise_at]. apply (candidate_positive s' nm); auto.
        { unfold declared. rewrite EN. apply in_app_iff; right; left; reflexivity. }
        { apply HO'. unfold declared. rewrite EN. apply in_app_iff; right; left; reflexivity. }
    + rewrite HT. apply WP; auto.
  - intros ix nn targets. unfold full_train_tensors. destruct (full_deformation F) as [d|] eqn:Ed.
    + destruct (DEF d eq_refl) as (d' & -> & _ & _ & _ & DD). destruct (DD ix nn) as [-> ->]. reflexivity.
    + unfold full_lib in L. rewrite Ed in L. discriminate.
Qed.
End Cand.

(** ** The objective at a candidate, and the selected model *)
Section Best.
Variable ls : lsolver.
Hypothesis EX : exact_solver ls.
Variable slogdet : nat -> mat -> R * R.
Variable eps : R.
Variables (gamma : R -> R) (kv : R -> R -> R).

Lemma names_bounds_length s F names x0 bounds : model_ok s F -> get_opt_params s (f_attr F) = Ok (names, x0, bounds) ->
  List.length bounds = List.length names.
Proof.
  intros (_ & NN & _) E. rewrite get_opt_params_eq in E by assumption. injection E as <- _ <-. rewrite !map_length. reflexivity.
Qed.
Lemma in_box_length x bounds : in_box x bounds -> List.length x = List.length bounds.
Proof. induction 1; cbn; auto. Qed.

Lemma candidate_value s F l kw draws train targets ix nn N b n c q names x0 bounds t :
  model_ok s F -> bounds_ok s F -> positive_bounds s F -> leading_free s (k_ls (m_kernel (f_attr F))) ->
  get_opt_params s (f_attr F) = Ok (names, x0, bounds) -> (f_kind F = FixedScale \/ ~ In "noise"%string names) ->
  trainable s F train b n -> loo_well_posed (full_noise s F) train b n c q ->
  batch_ok train targets ix nn N b n c q -> loss_kw_ok kw -> scores_vectors l ->
  full_train_tensors F ix nn train targets = Ok t ->
  forall x, in_box x bounds -> exists s' F' v,
    new_muygps s F names bounds (combine names (map Fin x)) = Ok (s', F') /\
    optimized_model s F (combine names (map Fin x)) s' F' /\
    obj_fn ls slogdet eps gamma kv s F l kw None draws (tr_pair t) (tr_cross t) (tr_nn_targets t) (tr_targets t) (combine names x) = Ok v /\
    loo_value gamma kv s' F' l kw train targets b n c q v /\
    trainable s' F' train b n /\ loo_well_posed (full_noise s' F') train b n c q.
Proof.
  intros MO BO PB LF EO SK TR WP (D & HT & Hb & Hn & SI & HC & NN) KW [L1 L2] Et x BOX.
  assert (LEN : List.length x = List.length names).
  { rewrite (in_box_length _ _ BOX). apply (names_bounds_length s F names x0); auto. }
  pose proof TR as (BD & _).
  destruct (objective_is_score ls slogdet eps gamma kv s F names x0 bounds x MO BO BD LF EO LEN BOX SK) as (s' & F' & E & O & OBJ).
  destruct (candidate_trainable s F names x0 bounds x MO PB EO LEN BOX s' F' train b n E O TR) as (TR' & WP' & TT).
  destruct (score_ok ls EX slogdet eps gamma kv s' F' l kw train targets ix nn N b n c q draws) as (t' & v & Et' & Ev & Hv); auto.
  rewrite TT, Et in Et'. injection Et' as <-.
  exists s', F', v. split; [exact E|]. split; [exact O|]. split; [rewrite OBJ; exact Ev|]. auto.
Qed.

Variables (s : store) (F : full) (l : loss) (kw : dict R) (draws : nat -> list nat) (train targets : nd R) (ix nn : nd Z)
  (N b n : nat) (c : nat -> nat) (q : nat -> nat -> nat) (names : list string) (x0 : list num) (bounds : list (num * num)).
Hypothesis MO : model_ok s F.
Hypothesis BO : bounds_ok s F.
Hypothesis PB : positive_bounds s F.
Hypothesis LF : leading_free s (k_ls (m_kernel (f_attr F))).
Hypothesis EO : get_opt_params s (f_attr F) = Ok (names, x0, bounds).
Hypothesis SK : f_kind F = FixedScale \/ ~ In "noise"%string names.
Hypothesis TR : trainable s F train b n.
Hypothesis WP : loo_well_posed (full_noise s F) train b n c q.
Hypothesis BK : batch_ok train targets ix nn N b n c q.
Hypothesis KW : loss_kw_ok kw.
Hypothesis LS : scores_vectors l.

Lemma tensors_total : exists t, full_train_tensors F ix nn train targets = Ok t.
Proof.
  destruct BK as (D & HT & Hb & Hn & SI & HC & NN). destruct TR as (B & (K & L & OK) & _).
  destruct (train_tensors_ok gamma kv s F K train targets ix nn N b n c q B L OK D HT SI HC NN) as (t & _ & _ & Et & _). eauto.
Qed.

Lemma best_candidate t x (tried : list R -> Prop) opt :
  full_train_tensors F ix nn train targets = Ok t ->
  let obj := obj_fn ls slogdet eps gamma kv s F l kw None draws (tr_pair t) (tr_cross t) (tr_nn_targets t) (tr_targets t) in
  opt s F obj = new_muygps s F names bounds (combine names (map Fin x)) -> in_box x bounds ->
  (forall y vx vy, tried y -> in_box y bounds -> obj (combine names x) = Ok vx -> obj (combine names y) = Ok vy -> vy <= vx) ->
  exists s' F' v, optimize_from_indices ls slogdet eps gamma kv opt s F l kw None draws ix nn train targets = Ok (s', F') /\
    optimized_model s F (combine names (map Fin x)) s' F' /\
    loo_value gamma kv s' F' l kw train targets b n c q v /\
    forall y, tried y -> in_box y bounds -> exists s'' F'' w,
      new_muygps s F names bounds (combine names (map Fin y)) = Ok (s'', F'') /\
      loo_value gamma kv s'' F'' l kw train targets b n c q w /\ w <= v.
Proof.
  intros Et obj EOpt BX BEST.
  destruct (candidate_value s F l kw draws train targets ix nn N b n c q names x0 bounds t MO BO PB LF EO SK TR WP BK KW LS Et x BX)
    as (s' & F' & v & E & O & OV & LV & _).
  exists s', F', v. split.
  { unfold optimize_from_indices. rewrite Et. cbn [bind]. unfold optimize_call. etransitivity; [exact EOpt|exact E]. }
  split; [exact O|]. split; [exact LV|]. intros y TY BY.
  destruct (candidate_value s F l kw draws train targets ix nn N b n c q names x0 bounds t MO BO PB LF EO SK TR WP BK KW LS Et y BY)
    as (s'' & F'' & w & E' & O' & OW & LW & _).
  exists s'', F'', w. split; [exact E'|]. split; [exact LW|]. apply (BEST y v w TY BY OV OW).
Qed.

Lemma scipy_best t x (tried : list R -> Prop) minimize :
  full_train_tensors F ix nn train targets = Ok t ->
  let obj := obj_fn ls slogdet eps gamma kv s F l kw None draws (tr_pair t) (tr_cross t) (tr_nn_targets t) (tr_targets t) in
  minimize (obj_fn_adapter obj names) x0 bounds = Ok (map Fin x) -> in_box x bounds ->
  (forall y vx vy, tried y -> in_box y bounds ->
     obj_fn_adapter obj names x = Ok vx -> obj_fn_adapter obj names y = Ok vy -> vx <= vy) ->
  exists s' F' v, optimize_from_indices ls slogdet eps gamma kv (scipy_optimize minimize) s F l kw None draws ix nn train targets = Ok (s', F') /\
    optimized_model s F (combine names (map Fin x)) s' F' /\
    loo_value gamma kv s' F' l kw train targets b n c q v /\
    forall y, tried y -> in_box y bounds -> exists s'' F'' w,
      new_muygps s F names bounds (combine names (map Fin y)) = Ok (s'', F'') /\
      loo_value gamma kv s'' F'' l kw train targets b n c q w /\ w <= v.
Proof.
  intros Et obj EM BX BEST. apply (best_candidate t x tried (scipy_optimize minimize)); auto.
  - fold obj. unfold scipy_optimize. rewrite EO. cbn [bind]. rewrite EM. cbn [bind]. rewrite map_length.
    rewrite (in_box_length _ _ BX), (names_bounds_length s F names x0 bounds MO EO), Nat.ltb_irrefl. reflexivity.
  - fold obj. intros y vx vy TY BY Hx Hy. unfold obj_fn_adapter in BEST.
    specialize (BEST y (- vx) (- vy) TY BY). rewrite Hx, Hy in BEST. cbn [bind] in BEST.
    specialize (BEST eq_refl eq_refl). lra.
Qed.

Lemma bayes_best t x (tried : list R -> Prop) maximize verbose okw plan :
  full_train_tensors F ix nn train targets = Ok t ->
  let obj := obj_fn ls slogdet eps gamma kv s F l kw None draws (tr_pair t) (tr_cross t) (tr_nn_targets t) (tr_targets t) in
  bayes_plan s F verbose okw = Ok plan -> maximize obj plan = Ok (combine names (map Fin x)) -> in_box x bounds ->
  (forall y vx vy, tried y -> in_box y bounds -> obj (combine names x) = Ok vx -> obj (combine names y) = Ok vy -> vy <= vx) ->
  exists s' F' v, optimize_from_indices ls slogdet eps gamma kv (fun s F f => bayes_optimize maximize s F f verbose okw)
      s F l kw None draws ix nn train targets = Ok (s', F') /\
    optimized_model s F (combine names (map Fin x)) s' F' /\
    loo_value gamma kv s' F' l kw train targets b n c q v /\
    forall y, tried y -> in_box y bounds -> exists s'' F'' w,
      new_muygps s F names bounds (combine names (map Fin y)) = Ok (s'', F'') /\
      loo_value gamma kv s'' F'' l kw train targets b n c q w /\ w <= v.
Proof.
  intros Et obj EP EM BX BEST. apply (best_candidate t x tried (fun s F f => bayes_optimize maximize s F f verbose okw)); auto.
  fold obj. unfold bayes_optimize. rewrite EO. cbn [bind]. rewrite EP. cbn [bind]. rewrite EM. reflexivity.
Qed.
End Best.
