(** Proofs about training shear models. *)
From Coq Require Import Lia Lra.
From Verif Require Import Base BaseFacts NdModel NdFacts RSum LinAlgModel LinAlgSpec LinAlgFacts GPModel NoiseModel NoiseProofs
  MuyGPSModel GPSpec MuyGPSProofs GPTheorems WellPosedProofs TensorModel TensorSpec TensorProofs KernelSpec KernelLemmas
  HyperModel HyperSpec NamedModel NamedSpec NamedProofs KernelModel FlowSpec LossModel LossSpec LossProofs
  ChassisModel ChassisSpec ChassisProofs ObjectiveProofs WorkSpec FlowProofs WorkProofs TrainSpec TrainProofs TrainProofs2
  ShearModel ShearSpec ShearFlowSpec ShearProofs ShearLemmas ShearPsd ShearGram ShearFlow ShearTrainModel ShearTrainSpec.
Local Open Scope R_scope.

Lemma kcall_kw km cur diffs kw : shear_kcall km cur diffs kw = shear_call km (kw_or kw "length_scale" cur) diffs.
Proof. destruct km; unfold shear_kcall, kw_or, shear33_call, shear23_call; cbn [shear_call pick]; destruct (dget kw "length_scale"); reflexivity. Qed.

Lemma obs_noise_stacked km (sn : bool) (v : R) k : (sn = true -> km = Full33) ->
  stacked_noise (if sn then ShearNoise33 v else HomoscedasticNoise v) km k (obs_noise sn v k).
Proof. intros H. destruct sn; [rewrite (H eq_refl)|]; reflexivity. Qed.
Lemma obs_noise_pos sn v k p : 0 < v -> 0 < obs_noise sn v k p.
Proof. intros H. destruct sn; cbn; [unfold shear_noise; destruct (p <? k)%nat|unfold flat_noise]; lra. Qed.

Lemma perturb_kw (sn : bool) (v : R) (c : option R) Kin : perturb (if sn then ShearNoise33 v else HomoscedasticNoise v) Kin c =
  perturb (if sn then ShearNoise33 (match c with Some x => x | None => v end) else HomoscedasticNoise (match c with Some x => x | None => v end)) Kin None.
Proof. destruct sn, c; reflexivity. Qed.

Lemma batch_inputs train targets ix nn n b k c q : shear_batch train targets ix nn n b k c q ->
  shear_inputs train train targets ix nn n n b k.
Proof.
  intros (S1 & S2 & Hb & Hk & Hbk & SI & HC & SN & HN). constructor; auto; try lia.
  - intros x Hx. destruct (HC x Hx) as [-> H]. apply in_range_of_nat; auto.
  - intros x i Hx Hi. destruct (HN x i Hx Hi) as [-> H]. apply in_range_of_nat; auto.
Qed.

(** ** The objective at keyword arguments [kw] *)
Section Obj.
Variable ls : lsolver.
Hypothesis EX : exact_solver ls.
Variable slogdet : nat -> mat -> R * R.
Variable eps : R.

Lemma train_tensors_split km mask ix nn train targets n b k c q : shear_batch train targets ix nn n b k c q ->
  forall outs, scored mask outs ->
  exists t, shear_train_tensors km mask ix nn train targets = Ok t /\
    shape (sh_targets t) = [b; List.length outs] /\
    (forall x i, (x < b)%nat -> (i < List.length outs)%nat -> at_ (sh_targets t) [x; i] = at_ targets [c x; nth i outs O]) /\
    forall l, shear_tensors km l train train targets ix nn =
      (let! Kcross := shear_call km l (sh_cross t) in let! Kin := shear_call km l (sh_pair t) in Ok (Kin, Kcross, sh_nn_targets t)).
Proof.
  intros B outs SC. pose proof (batch_inputs _ _ _ _ _ _ _ _ _ B) as IN.
  destruct B as (S1 & S2 & Hb & Hk & Hbk & SI & HC & SN & HN).
  destruct (tensors_ok km 1 train train targets ix nn n n b k ltac:(lra) IN) as (Kin & Kc & T & ET & _).
  unfold shear_tensors in ET. unfold shear_train_tensors, shear_tensors.
  apply bind_ok in ET as (cw & Ec & ET). apply bind_ok in ET as (pw & Ep & ET). apply bind_ok in ET as (nt & En & _).
  rewrite Ec. cbn [bind]. rewrite Ep. cbn [bind]. rewrite En. cbn [bind].
  destruct (take_ok targets ix n [3%nat] S2) as (T1 & ET1 & ST1 & HT1).
  { intros idx Hi. rewrite SI in Hi. apply inb_inv1 in Hi as (x & -> & Hx). destruct (HC x Hx) as [-> Hl]. apply in_range_of_nat; auto. }
  rewrite ET1. cbn [bind]. rewrite SI in ST1. cbn [app] in ST1.
  assert (V : forall x o, (x < b)%nat -> (o < 3)%nat -> at_ T1 [x; o] = at_ targets [c x; o]).
  { intros x o Hx Ho. destruct (HC x Hx) as [Ex Hl]. specialize (HT1 [x] [o] (c x)). cbn [app] in HT1. apply HT1.
    - rewrite SI. apply inb1; auto.
    - rewrite Ex. apply selects_of_nat; auto. }
  destruct mask as [m|]; cbn [scored] in SC.
  - destruct SC as (-> & NE & LT). unfold mask_cols. rewrite ST1.
    assert (FB : forallb (fun j => (j <? 3)%nat) m = true).
    { apply forallb_forall. intros o Ho. apply Nat.ltb_lt. auto. }
    rewrite FB. cbn [bind]. eexists. split; [reflexivity|]. cbn [sh_targets sh_cross sh_pair sh_nn_targets shape at_].
    split; [reflexivity|]. split; [|reflexivity]. intros x i Hx Hi. apply V; auto. apply LT. apply nth_In. exact Hi.
  - subst outs. cbn [bind]. eexists. split; [reflexivity|]. cbn [sh_targets sh_cross sh_pair sh_nn_targets].
    split; [exact ST1|]. split; [|reflexivity]. cbn [List.length]. intros x i Hx Hi.
    destruct i as [|[|[|i]]]; [| | |lia]; cbn [nth]; apply V; auto.
Qed.

Lemma obj_value km sn s F l kw mask outs draws train targets ix nn n b k c q t nl nv :
  (sn = true -> km = Full33) -> m_kernel (f_bound F) = KRbf (LSScalar nl) -> m_noise (f_bound F) = NHomo nv ->
  0 < reals s (nm_loc nl) ->
  shear_batch train targets ix nn n b k c q -> scored mask outs -> loss_kw_ok kw -> l = Mse \/ l = PseudoHuber ->
  shear_train_tensors km mask ix nn train targets = Ok t ->
  forall cand, let len := kw_or cand "length_scale" (reals s (nm_loc nl)) in let v := kw_or cand "noise" (reals s (nm_loc nv)) in
  0 < len -> 0 < v ->
  exists mean L,
    shear_obj_fn ls slogdet eps km sn s F l kw mask draws t cand = Ok (- L) /\
    (forall x o, (x < b)%nat -> (o < 3)%nat -> cokriging km sn len v train targets k (q x) (feature train (c x)) o (mean x o)) /\
    shear_loss l kw b outs (fun x o => at_ targets [c x; o]) mean = Some L.
Proof.
  intros SNF EK EN Hcur B SC KW HL Et cand len v Hlen Hv.
  pose proof (batch_inputs _ _ _ _ _ _ _ _ _ B) as IN.
  destruct (train_tensors_split km mask ix nn train targets n b k c q B outs SC) as (t' & Et' & SY & HY & TT).
  rewrite Et in Et'. injection Et' as <-.
  destruct (shear_predict_ok ls EX km len (if sn then ShearNoise33 v else HomoscedasticNoise v) (obs_noise sn v k)
    train train targets ix nn n n b k Hlen IN (obs_noise_stacked km sn v k SNF)) as (P & EP & SP & HP).
  { intros p _. apply obs_noise_pos; auto. }
  destruct B as (S1 & S2 & Hb & Hk & Hbk & SI & HC & SN & HN).
  unfold shear_predict in EP. rewrite TT in EP.
  destruct (shear_call km len (sh_cross t)) as [Kc|] eqn:ECc; [|discriminate EP]. cbn [bind] in EP.
  destruct (shear_call km len (sh_pair t)) as [Kin|] eqn:ECp; [|discriminate EP]. cbn [bind] in EP.
  assert (CK : forall x o, (x < b)%nat -> (o < 3)%nat ->
     cokriging km sn len v train targets k (q x) (feature train (c x)) o (at_ P [x; o])).
  { intros x o Hx Ho. apply HP; auto.
    - destruct (HC x Hx) as [-> H]. apply selects_of_nat; auto.
    - intros i Hi. destruct (HN x i Hx Hi) as [-> H]. apply selects_of_nat; auto. }
  destruct (kout_ok km (reals s (nm_loc nl)) Hcur) as (Ko & EKo & _).
  set (g := mkGp (if sn then ShearNoise33 (reals s (nm_loc nv)) else HomoscedasticNoise (reals s (nm_loc nv))) (f_kind F) (f_scale F) (f_var_scale F) Ko).
  assert (EG : shear_gp km sn s F = Ok g).
  { unfold shear_gp, shear_length_scale. rewrite EK. cbn [k_ls bind]. rewrite EKo. cbn [bind]. rewrite EN. unfold g, shear_noise_of.
    destruct sn; reflexivity. }
  assert (EM : gp_posterior_mean ls g Kin Kc (sh_nn_targets t) (dget cand "noise") = Ok P).
  { unfold gp_posterior_mean, g. cbn [gp_noise]. rewrite perturb_kw. exact EP. }
  assert (MK : exists P', (match mask with None => Ok P | Some m => mask_cols P m end) = Ok P' /\ shape P' = [b; List.length outs] /\
     forall x i, (x < b)%nat -> (i < List.length outs)%nat -> at_ P' [x; i] = at_ P [x; nth i outs O]).
  { destruct mask as [m|]; cbn [scored] in SC.
    - destruct SC as (-> & NE & LT). unfold mask_cols. rewrite SP.
      assert (FB : forallb (fun j => (j <? 3)%nat) m = true).
      { apply forallb_forall. intros o Ho. apply Nat.ltb_lt. auto. }
      rewrite FB. eexists. split; [reflexivity|]. split; reflexivity.
    - subst outs. exists P. split; [reflexivity|]. split; [exact SP|]. cbn [List.length]. intros x i Hx Hi.
      destruct i as [|[|[|i]]]; [| | |lia]; reflexivity. }
  destruct MK as (P' & EP' & SP' & HP').
  assert (SS : shape P' = shape (sh_targets t)) by (rewrite SP', SY; reflexivity).
  assert (CL : clash kw ["predictions"; "targets"]%string = false).
  { apply loss_kw_clash; auto. intros [H|[H|[]]]; discriminate. }
  exists (fun x o => at_ P [x; o]).
  unfold shear_obj_fn, shear_length_scale. rewrite EK. cbn [k_ls bind]. rewrite EG. cbn [bind].
  rewrite !kcall_kw. fold len. rewrite ECp. cbn [bind]. rewrite ECc. cbn [bind].
  destruct HL as [-> | ->]; cbn [predict_and_loss loss_wrapper]; rewrite EM; cbn [bind]; rewrite EP'; cbn [bind loss_call shear_loss].
  - rewrite CL, mse_formula by auto. cbn [bind]. eexists. split; [reflexivity|]. split; [exact CK|]. f_equal.
    rewrite SP'. rewrite !nprod_cons, nprod0, Nat.mul_1_r, mult_INR. f_equal. cbn [total]. apply rsum_ext. intros x Hx.
    apply rsum_ext. intros i Hi. unfold residual_sq. rewrite HP', HY by auto. reflexivity.
  - rewrite CL. rewrite huber_formula by auto.
    cbn [bind]. eexists. split; [reflexivity|]. split; [exact CK|]. f_equal.
    rewrite SP'. cbn [total]. apply rsum_ext. intros x Hx.
    apply rsum_ext. intros i Hi. rewrite HP', HY by auto. reflexivity.
Qed.
End Obj.
