(** Proofs about training shear models: candidates, the selected model, its predictions. *)
From Coq Require Import Lia Lra.
From Verif Require Import Base BaseFacts NdModel NdFacts RSum LinAlgModel LinAlgSpec LinAlgFacts GPModel NoiseModel NoiseProofs
  MuyGPSModel GPSpec MuyGPSProofs GPTheorems WellPosedProofs TensorModel TensorSpec TensorProofs KernelSpec KernelLemmas
  HyperModel HyperSpec NamedModel NamedSpec NamedProofs KernelModel FlowSpec LossModel LossSpec LossProofs
  ChassisModel ChassisSpec ChassisProofs ObjectiveProofs WorkSpec FlowProofs WorkProofs TrainSpec TrainProofs TrainProofs2
  ShearModel ShearSpec ShearFlowSpec ShearProofs ShearLemmas ShearPsd ShearGram ShearFlow ShearEdge ShearTrainModel ShearTrainSpec ShearTrainProofs.
Local Open Scope R_scope.

Lemma shear_built_names m nl nv : built m -> m_kernel m = KRbf (LSScalar nl) -> m_noise m = NHomo nv ->
  nm_name nl = "length_scale"%string /\ nm_name nv = "noise"%string.
Proof.
  intros (Hl & _ & Hn) EK EN. rewrite EK in Hl. rewrite EN in Hn. cbn [k_ls] in Hl. inversion Hl; subst. split; auto.
Qed.

Section Cand.
Variables (km : shear_model) (sn : bool) (s : store) (F : full) (names : list string) (x0 : list num) (bounds : list (num * num)).
Hypothesis MO : model_ok s F.
Hypothesis BO : bounds_ok s F.
Hypothesis PB : positive_bounds s F.
Hypothesis EO : get_opt_params s (f_attr F) = Ok (names, x0, bounds).
Hypothesis TR : shear_trainable km sn s F.

Lemma shear_candidate x : in_box x bounds -> exists s' F' nl nv nl' nv',
  new_muygps s F names bounds (combine names (map Fin x)) = Ok (s', F') /\
  optimized_model s F (combine names (map Fin x)) s' F' /\
  m_kernel (f_attr F) = KRbf (LSScalar nl) /\ m_noise (f_attr F) = NHomo nv /\
  m_kernel (f_attr F') = KRbf (LSScalar nl') /\ m_noise (f_attr F') = NHomo nv' /\
  kw_or (combine names x) "length_scale" (reals s (nm_loc nl)) = reals s' (nm_loc nl') /\
  kw_or (combine names x) "noise" (reals s (nm_loc nv)) = reals s' (nm_loc nv') /\
  0 < reals s (nm_loc nl) /\ 0 < reals s' (nm_loc nl') /\ 0 < reals s' (nm_loc nv') /\
  shear_trainable km sn s' F'.
Proof.
  intros BX. destruct TR as (BD & (l & v & (nl & nv & EK & EN & -> & ->) & Hl & Hv) & SNF).
  assert (LEN : List.length x = List.length names).
  { rewrite (in_box_length _ _ BX). apply (names_bounds_length s F names x0); auto. }
  destruct (new_muygps_spec s F names x0 bounds (combine names (map Fin x)) MO BO EO) as (s' & F' & E & O).
  { intros k Hk. apply dget_combine_some; [rewrite map_length; lia|assumption]. }
  pose proof (new_muygps_form _ _ _ _ _ _ _ E) as EF.
  assert (AT : f_attr F' = model_make s' (move_model (st_next s) (f_attr F))) by (subst F'; reflexivity).
  pose proof MO as (Hb & Hnn & _). pose proof O as (_ & HO & HB' & _).
  rewrite AT, declared_make, declared_move in HO. pose proof (Forall2_map_in _ _ _ HO) as HO'. clear HO.
  destruct (shear_built_names _ nl nv Hb EK EN) as [NL NV].
  assert (Dl : In nl (declared (f_attr F))) by (unfold declared; rewrite EK; apply in_app_iff; left; left; reflexivity).
  assert (Dv : In nv (declared (f_attr F))) by (unfold declared; rewrite EN; apply in_app_iff; right; left; reflexivity).
  assert (AG : forall n, In n (declared (f_attr F)) -> agrees s s' (combine names x) n (move_named (st_next s) n)).
  { intros n Hn. eapply optimized_agrees; eauto. }
  assert (POS : forall n, In n (declared (f_attr F)) -> 0 < reals s (nm_loc n) -> 0 < reals s' (nm_loc (move_named (st_next s) n))).
  { intros n Hn Hp. destruct (p_fixed (st_cell s (nm_loc n))) eqn:Hf.
    - destruct (HO' n Hn) as (_ & _ & _ & _ & V). rewrite Hf in V. unfold reals in *. rewrite V. exact Hp.
    - apply (candidate_positive s F names x0 bounds x MO PB EO BX s' n); auto. }
  assert (EK' : m_kernel (f_attr F') = KRbf (LSScalar (move_named (st_next s) nl))).
  { rewrite AT. cbn [model_make move_model m_kernel]. rewrite EK. reflexivity. }
  assert (EN' : m_noise (f_attr F') = NHomo (move_named (st_next s) nv)).
  { rewrite AT. cbn [model_make move_model m_noise]. rewrite EN. reflexivity. }
  exists s', F', nl, nv, (move_named (st_next s) nl), (move_named (st_next s) nv).
  split; [exact E|]. split; [exact O|]. split; [exact EK|]. split; [exact EN|]. split; [exact EK'|]. split; [exact EN'|].
  split. { rewrite <- NL. apply (AG nl Dl). }
  split. { rewrite <- NV. apply (AG nv Dv). }
  split; [exact Hl|]. split; [auto|]. split; [auto|].
  split; [exact HB'|]. split; [|exact SNF].
  exists (reals s' (nm_loc (move_named (st_next s) nl))), (reals s' (nm_loc (move_named (st_next s) nv))).
  split; [|auto]. exists (move_named (st_next s) nl), (move_named (st_next s) nv). auto.
Qed.

Variable ls : lsolver.
Hypothesis EX : exact_solver ls.
Variable slogdet : nat -> mat -> R * R.
Variable eps : R.
Variables (l : loss) (kw : dict R) (mask : option (list nat)) (outs : list nat) (draws : nat -> list nat)
  (train targets : nd R) (ix nn : nd Z) (n b k : nat) (c : nat -> nat) (q : nat -> nat -> nat).
Hypothesis BK : shear_batch train targets ix nn n b k c q.
Hypothesis SC : scored mask outs.
Hypothesis KW : loss_kw_ok kw.
Hypothesis HL : l = Mse \/ l = PseudoHuber.

Lemma shear_candidate_value t : shear_train_tensors km mask ix nn train targets = Ok t ->
  forall x, in_box x bounds -> exists s' F' w,
    new_muygps s F names bounds (combine names (map Fin x)) = Ok (s', F') /\
    optimized_model s F (combine names (map Fin x)) s' F' /\
    shear_obj_fn ls slogdet eps km sn s F l kw mask draws t (combine names x) = Ok w /\
    shear_loo_value km sn s' F' l kw outs train targets b k c q w /\ shear_trainable km sn s' F'.
Proof.
  intros Et x BX. destruct (shear_candidate x BX) as (s' & F' & nl & nv & nl' & nv' & E & O & EK & EN & EK' & EN' & KL & KN & P0 & P1 & P2 & TR').
  pose proof TR as (BD & _ & SNF). rewrite <- BD in EK, EN.
  destruct (obj_value ls EX slogdet eps km sn s F l kw mask outs draws train targets ix nn n b k c q t nl nv SNF EK EN P0 BK SC KW HL Et
    (combine names x)) as (mean & L & EV & CK & SL).
  { rewrite KL. exact P1. } { rewrite KN. exact P2. }
  exists s', F', (- L). split; [exact E|]. split; [exact O|]. split; [exact EV|]. split; [|exact TR'].
  exists (reals s' (nm_loc nl')), (reals s' (nm_loc nv')), mean, L.
  split; [exists nl', nv'; auto|]. split; [exact P1|]. split; [exact P2|]. rewrite KL, KN in CK. auto.
Qed.

Lemma shear_train_best opt tried : returns_best opt s F names bounds tried ->
  exists t x s' F' w, shear_train_tensors km mask ix nn train targets = Ok t /\ in_box x bounds /\
    shear_optimize ls slogdet eps opt km sn s F l kw mask draws ix nn train targets = Ok (s', F') /\
    optimized_model s F (combine names (map Fin x)) s' F' /\
    shear_loo_value km sn s' F' l kw outs train targets b k c q w /\ shear_trainable km sn s' F' /\
    forall y, tried (shear_obj_fn ls slogdet eps km sn s F l kw mask draws t) y -> in_box y bounds -> exists s'' F'' w',
      new_muygps s F names bounds (combine names (map Fin y)) = Ok (s'', F'') /\
      shear_loo_value km sn s'' F'' l kw outs train targets b k c q w' /\ w' <= w.
Proof.
  intros RB. destruct (train_tensors_split km mask ix nn train targets n b k c q BK outs SC) as (t & Et & _).
  destruct (RB (shear_obj_fn ls slogdet eps km sn s F l kw mask draws t)) as (x & BX & EOpt & BEST).
  { intros y By. destruct (shear_candidate_value t Et y By) as (s' & F' & w & _ & _ & E & _). eauto. }
  destruct (shear_candidate_value t Et x BX) as (s' & F' & w & E & O & OV & LV & TR').
  exists t, x, s', F', w. split; [exact Et|]. split; [exact BX|]. split.
  { unfold shear_optimize. rewrite Et. cbn [bind]. rewrite EOpt. exact E. }
  split; [exact O|]. split; [exact LV|]. split; [exact TR'|]. intros y TY BY.
  destruct (shear_candidate_value t Et y BY) as (s'' & F'' & w' & E' & O' & OW & LW & _).
  exists s'', F'', w'. split; [exact E'|]. split; [exact LW|]. apply (BEST y w w' TY BY OV OW).
Qed.
End Cand.

(** ** Predictions of a model object *)
Lemma shear_posterior_ok ls : exact_solver ls -> forall km sn s F l v test train targets ix nn m n b k,
  shear_trainable km sn s F -> shear_values s F l v -> shear_inputs test train targets ix nn m n b k ->
  exists mean var, shear_posterior ls km sn s F test train targets ix nn = Ok (mean, var) /\
    shape mean = [b; 3]%nat /\ shape var = [b; 3; 3]%nat /\
    forall x r rows o, (x < b)%nat -> (o < 3)%nat -> selects m (at_ ix [x]) r ->
      (forall i, (i < k)%nat -> selects n (at_ nn [x; i]) (rows i)) ->
      cokriging km sn l v train targets k rows (feature test r) o (at_ mean [x; o]) /\
      cokriging_covariance km sn l v (f_var_scale F) train k rows (feature test r) o (fun o' => at_ var [x; o; o']).
Proof.
  intros EX km sn s F l v test train targets ix nn m n b k (BD & (l' & v' & (nl & nv & EK & EN & E1 & E2) & Hl & Hv) & SNF) SV IN.
  assert (EV : l = l' /\ v = v').
  { destruct SV as (nl1 & nv1 & EK1 & EN1 & -> & ->). rewrite EK in EK1. rewrite EN in EN1. injection EK1 as ->. injection EN1 as ->. auto. }
  destruct EV as [-> ->]. clear SV.
  set (nz := if sn then ShearNoise33 v' else HomoscedasticNoise v').
  pose proof (obs_noise_stacked km sn v' k SNF) as SNo. fold nz in SNo.
  assert (PN : forall p, (p < observed km * k)%nat -> 0 < obs_noise sn v' k p) by (intros; apply obs_noise_pos; auto).
  destruct (shear_predict_ok ls EX km l' nz (obs_noise sn v' k) test train targets ix nn m n b k Hl IN SNo PN) as (P & EP & SP & HP).
  destruct (shear_variance_ok ls EX km l' nz (obs_noise sn v' k) test train targets ix nn m n b k Hl IN SNo PN) as (V & EVv & SV & HV).
  destruct (kout_ok km l' Hl) as (Ko & EKo & _).
  unfold shear_predict in EP. unfold shear_variance in EVv.
  destruct (shear_tensors km l' test train targets ix nn) as [[[Kin Kc] T]|] eqn:ET; [|discriminate EP]. cbn [bind] in EP, EVv.
  exists P, (ndmap (Rmult (f_var_scale F)) V). split.
  { unfold shear_posterior, shear_gp, shear_length_scale. rewrite BD, EK. cbn [k_ls bind]. rewrite <- E1. rewrite EKo. cbn [bind].
    rewrite ET. cbn [bind]. rewrite EN. unfold shear_noise_of. rewrite <- E2. fold nz.
    unfold gp_posterior_mean. cbn [gp_noise]. rewrite EP. cbn [bind].
    unfold gp_posterior_variance, gp_opt_variance. cbn [gp_noise gp_Kout gp_var_scale].
    destruct (perturb nz Kin None) as [K|]; [|discriminate EVv]. cbn [bind] in EVv |- *. rewrite EKo in EVv. cbn [bind] in EVv.
    rewrite EVv. reflexivity. }
  split; [exact SP|]. split; [exact SV|]. intros x r rows o Hx Ho Hr Hrows. split; [apply HP; auto|].
  destruct (HV x r rows o Hx Ho Hr Hrows) as ((w & Hw & Val) & Bd). split.
  - exists w. split; [exact Hw|]. intros o' Ho'. cbn [ndmap at_]. rewrite Val by auto. reflexivity.
  - intros SP'. cbn [ndmap at_]. split; [apply Rmult_le_pos; tauto|apply Rmult_le_compat_l; tauto].
Qed.

(** ** As many batch rows as neighbours *)
Lemma train_tensors_eq km mask ix nn train targets t l : shear_train_tensors km mask ix nn train targets = Ok t ->
  shear_tensors km l train train targets ix nn =
    (let! Kcross := shear_call km l (sh_cross t) in let! Kin := shear_call km l (sh_pair t) in Ok (Kin, Kcross, sh_nn_targets t)).
Proof.
  unfold shear_train_tensors, shear_tensors. intros E.
  apply bind_ok in E as (cw & -> & E). apply bind_ok in E as (pw & -> & E). apply bind_ok in E as (nt & -> & E).
  apply bind_ok in E as (t0 & _ & E). apply bind_ok in E as (y & _ & E). injection E as <-. reflexivity.
Qed.

Lemma square_batch_fails ls slogdet eps km sn s F l kw mask draws train targets ix nn n k t nl nv cand :
  (sn = true -> km = Full33) -> m_kernel (f_bound F) = KRbf (LSScalar nl) -> m_noise (f_bound F) = NHomo nv ->
  0 < kw_or cand "length_scale" (reals s (nm_loc nl)) ->
  (2 <= k)%nat -> k <> observed km -> shape train = [n; 2]%nat -> shape targets = [n; 3]%nat -> shape ix = [k] -> shape nn = [k; k] ->
  (forall x, (x < k)%nat -> ~ out_of_range n (at_ ix [x])) ->
  (forall x i, (x < k)%nat -> (i < k)%nat -> ~ out_of_range n (at_ nn [x; i])) ->
  shear_train_tensors km mask ix nn train targets = Ok t ->
  exists e, shear_obj_fn ls slogdet eps km sn s F l kw mask draws t cand = Err e.
Proof.
  intros SNF EK EN Hl Hk Ho S1 S2 SI SN HI HN Et.
  set (len := kw_or cand "length_scale" (reals s (nm_loc nl))) in *.
  set (v := kw_or cand "noise" (reals s (nm_loc nv))).
  pose proof (ShearEdge.square_rejected ls km len (if sn then ShearNoise33 v else HomoscedasticNoise v) (obs_noise sn v k)
    train train targets ix nn n n k Hl Hk Ho S1 S1 S2 SI SN HI HN (obs_noise_stacked km sn v k SNF)) as SQ.
  unfold shear_predict in SQ. rewrite (train_tensors_eq km mask ix nn train targets t len Et) in SQ.
  unfold shear_obj_fn, shear_gp, shear_length_scale. rewrite EK. cbn [k_ls bind]. rewrite !kcall_kw. fold len.
  destruct (match km with Full33 => _ | Two23 => _ end) as [Ko|e]; cbn [bind]; [|eauto].
  destruct (shear_call km len (sh_pair t)) as [Kin|e]; cbn [bind]; [|eauto].
  destruct (shear_call km len (sh_cross t)) as [Kc|e]; cbn [bind] in SQ |- *; [|eauto].
  assert (EM : forall g, gp_noise g = shear_noise_of sn s F (m_noise (f_bound F)) ->
    gp_posterior_mean ls g Kin Kc (sh_nn_targets t) (dget cand "noise") = Err ValueError).
  { intros g Eg. unfold gp_posterior_mean. rewrite Eg, EN. unfold shear_noise_of. rewrite perturb_kw. exact SQ. }
  exists ValueError. unfold predict_and_loss. destruct (loss_wrapper l); rewrite EM by reflexivity; reflexivity.
Qed.
