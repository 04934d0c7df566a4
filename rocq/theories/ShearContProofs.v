(** The training objective of a shear model is continuous on the box of bounds and attains its best value there. *)
From Coq Require Import Lia Lra.
From Coquelicot Require Import Coquelicot.
From Verif Require Import Base BaseFacts NdModel NdFacts RSum LinAlgModel LinAlgSpec LinAlgFacts Gauss
  GPModel NoiseModel NoiseProofs MuyGPSModel GPSpec GPTheorems TensorModel TensorSpec
  HyperModel HyperSpec NamedModel NamedSpec KernelModel KernelSpec FlowSpec LossModel LossSpec ChassisModel ChassisSpec WorkSpec FarSpec FarProofs
  TrainSpec ContSpec ContProofs ContProofs2
  ShearModel ShearSpec ShearFlowSpec ShearProofs ShearFlow ShearEdge ShearTrainModel ShearTrainSpec ShearTrainProofs ShearTrainProofs2
  ShearBestSpec ShearBestProofs.
Local Open Scope R_scope.

Lemma cform_cont a c u v l0 : 0 < l0 -> continuity_pt (fun r => cform r a c u v) l0.
Proof.
  intros H. apply derivable_continuous_pt, ex_derive_Reals_0.
  unfold cform. destruct (obs a), (obs c); unfold kk_fn, kg1_fn, kg2_fn, g1g1_fn, g1g2_fn, g2g2_fn; auto_derive;
    repeat split; try lra; try (apply pow_nonzero; lra); try (apply Rmult_integral_contrapositive; split; lra);
    try (repeat (apply Rmult_integral_contrapositive; split); lra); auto.
Qed.

(** ** The objective as a formula *)
Section Formula.
Variables (km : shear_model) (sn : bool) (train targets : nd R) (k b : nat) (c : nat -> nat) (q : nat -> nat -> nat).
Notation N := (observed km * k)%nat.
Definition coA (len v : R) (x : nat) := matA km sn len v train k (q x).
Definition cok (len : R) (x o : nat) := crs km len train k (q x) (feature train (c x)) o.
Definition coy (x p : nat) : R := at_ targets [q x (p mod k)%nat; (unobserved km + p / k)%nat].
Definition comean (len v : R) (x o : nat) : R := dot N (gsol N (coA len v x) (cok len x o)) (coy x).
Definition coloss (l : loss) (kw : dict R) (outs : list nat) (mean : nat -> nat -> R) : R :=
  match shear_loss l kw b outs (fun x o => at_ targets [c x; o]) mean with Some L => L | None => 0 end.

Lemma coloss_ext l kw outs m m' : (forall o, In o outs -> (o < 3)%nat) ->
  (forall x o, (x < b)%nat -> (o < 3)%nat -> m x o = m' x o) -> coloss l kw outs m = coloss l kw outs m'.
Proof.
  intros IN E. unfold coloss.
  assert (G : forall x i, (x < b)%nat -> (i < List.length outs)%nat -> m x (nth i outs O) = m' x (nth i outs O)).
  { intros x i Hx Hi. apply E; [exact Hx|]. apply IN, nth_In, Hi. }
  destruct l; cbn [shear_loss]; try reflexivity.
  - f_equal. apply rsum_ext. intros x Hx. apply rsum_ext. intros i Hi. rewrite G by auto. reflexivity.
  - apply rsum_ext. intros x Hx. apply rsum_ext. intros i Hi. rewrite G by auto. reflexivity.
Qed.


Lemma value_formula s F l kw outs w len v : (forall o, In o outs -> (o < 3)%nat) -> shear_values s F len v ->
  shear_loo_value km sn s F l kw outs train targets b k c q w -> w = - coloss l kw outs (comean len v).
Proof.
  intros IN SV (len' & v' & mean & L & SV' & Hl & Hv & CK & SL & ->).
  assert (EV : len = len' /\ v = v').
  { destruct SV as (nl & nv & EK & EN & -> & ->). destruct SV' as (nl1 & nv1 & EK1 & EN1 & -> & ->).
    rewrite EK in EK1. rewrite EN in EN1. injection EK1 as ->. injection EN1 as ->. auto. }
  destruct EV as [-> ->]. clear SV.
  f_equal. transitivity (coloss l kw outs mean); [unfold coloss; rewrite SL; reflexivity|].
  apply coloss_ext; [exact IN|]. intros x o Hx Ho. destruct (CK x o Hx Ho) as (u & U & ->). unfold comean.
  apply (gsol_unique N (coA len' v' x) (cok len' x o) u (coy x)); [|exact U].
  apply pd_nonsingular. apply (matA_pd km sn len' v' train k (q x)); auto.
Qed.

Section Limit.
Context {T : Type}.
Variable near : R -> T -> Prop.
Hypothesis MON : forall d d' t, near d t -> d <= d' -> near d' t.
Variables (len v : T -> R) (len0 v0 : R).
Hypothesis L0 : 0 < len0.
Hypothesis V0 : 0 < v0.
Hypothesis TL : tends near len len0.
Hypothesis TV : tends near v v0.

Lemma tends_cov a a' x y : tends near (fun t => shear_cov (len t) (obs a) (obs a') x y) (shear_cov len0 (obs a) (obs a') x y).
Proof.
  rewrite cov_closed by lra.
  apply (tends_ext near MON (fun t => cform (len t) a a' (x O - y O) (x 1%nat - y 1%nat))).
  - apply (ev_imp near _ _ (tends_pos near len len0 L0 TL)). intros t Ht. rewrite cov_closed by lra. reflexivity.
  - apply (tends_comp near (fun r => cform r a a' (x O - y O) (x 1%nat - y 1%nat))); [apply cform_cont; exact L0|exact TL].
Qed.

Lemma tends_noise p : tends near (fun t => obs_noise sn (v t) k p) (obs_noise sn v0 k p).
Proof.
  unfold obs_noise. destruct sn; [|exact TV]. unfold shear_noise. destruct (p <? k)%nat; [|exact TV].
  apply (tends_scal near). exact TV.
Qed.

Lemma tends_comean x o : tends near (fun t => comean (len t) (v t) x o) (comean len0 v0 x o).
Proof.
  unfold comean, dot.
  apply (tends_rsum near MON N (fun i t => gsol N (coA (len t) (v t) x) (cok (len t) x o) i * coy x i)).
  intros i Hi. apply (tends_mult near MON); [|apply tends_const].
  assert (PD0 : pd N (coA len0 v0 x)) by (apply matA_pd; auto).
  destruct (pd_coercive N (coA len0 v0 x) (matA_sym km sn len0 v0 train k (q x) L0) PD0) as (c0 & C0 & CO).
  apply (tends_solve near MON N (fun t => coA (len t) (v t) x) (fun t => cok (len t) x o) (fun t => gsol N (coA (len t) (v t) x) (cok (len t) x o))
    (coA len0 v0 x) (cok len0 x o) (gsol N (coA len0 v0 x) (cok len0 x o)) c0 C0 CO); auto.
  - apply gsol_solves, pd_nonsingular, PD0.
  - intros p p' _ _. unfold coA, matA, plus_diag. apply (tends_plus near MON); [apply tends_cov|].
    destruct (Nat.eqb p p'); [apply tends_noise|apply tends_const].
  - intros p _. apply tends_cov.
  - apply (ev_imp near _ _ (ev_and near MON _ _ (tends_pos near len len0 L0 TL) (tends_pos near v v0 V0 TV))).
    intros t [H1 H2]. apply gsol_solves, pd_nonsingular, matA_pd; auto.
Qed.

Lemma tends_coloss l kw outs (mean : T -> nat -> nat -> R) mean0 : (forall x o, tends near (fun t => mean t x o) (mean0 x o)) ->
  tends near (fun t => coloss l kw outs (mean t)) (coloss l kw outs mean0).
Proof.
  intros TM. unfold coloss. destruct l; cbn [shear_loss]; try apply tends_const.
  - unfold Rdiv. apply (tends_mult near MON); [|apply tends_const].
    apply (tends_rsum near MON b (fun x t => rsum (List.length outs) (fun i => (mean t x (nth i outs O) - at_ targets [c x; nth i outs O]) ^ 2))).
    intros x Hx. apply (tends_rsum near MON (List.length outs) (fun i t => (mean t x (nth i outs O) - at_ targets [c x; nth i outs O]) ^ 2)).
    intros i Hi. apply (tends_sq near), (tends_minus near MON); [apply TM|apply tends_const].
  - set (delta := kw_or kw "boundary_scale" (3/2)).
    apply (tends_rsum near MON b (fun x t => rsum (List.length outs) (fun i => huber_entry delta (at_ targets [c x; nth i outs O] - mean t x (nth i outs O))))).
    intros x Hx. apply (tends_rsum near MON (List.length outs) (fun i t => huber_entry delta (at_ targets [c x; nth i outs O] - mean t x (nth i outs O)))).
    intros i Hi. unfold huber_entry. apply (tends_scal near), (tends_minus near MON); [|apply tends_const].
    apply (tends_sqrt near); [pose proof (pow2_ge_0 ((at_ targets [c x; nth i outs O] - mean0 x (nth i outs O)) / delta)); lra|].
    apply (tends_plus near MON); [apply tends_const|]. apply (tends_sq near). unfold Rdiv. apply (tends_mult near MON); [|apply tends_const].
    apply (tends_minus near MON); [apply tends_const|apply TM].
Qed.
End Limit.
End Formula.

Section Objective.
Variable ls : lsolver.
Hypothesis EX : exact_solver ls.
Variable slogdet : nat -> mat -> R * R.
Variable eps0 : R.
Variables (km : shear_model) (sn : bool) (s : store) (F : full) (l : loss) (kw : dict R) (mask : option (list nat)) (outs : list nat)
  (draws : nat -> list nat) (train targets : nd R) (ix nn : nd Z) (n b k : nat) (c : nat -> nat) (q : nat -> nat -> nat)
  (names : list string) (x0 : list num) (bounds : list (num * num)).
Hypothesis MO : model_ok s F.
Hypothesis BO : bounds_ok s F.
Hypothesis PB : positive_bounds s F.
Hypothesis EO : get_opt_params s (f_attr F) = Ok (names, x0, bounds).
Hypothesis TR : shear_trainable km sn s F.
Hypothesis BK : shear_batch train targets ix nn n b k c q.
Hypothesis SC : scored mask outs.
Hypothesis KW : loss_kw_ok kw.
Hypothesis HL : l = Mse \/ l = PseudoHuber.
Variable t : shear_train.
Hypothesis ET : shear_train_tensors km mask ix nn train targets = Ok t.
Let obj := shear_obj_fn ls slogdet eps0 km sn s F l kw mask draws t.

Lemma shear_params : exists nl nv, forall x, in_box x bounds -> exists w,
  0 < kw_or (combine names x) "length_scale" (reals s (nm_loc nl)) /\ 0 < kw_or (combine names x) "noise" (reals s (nm_loc nv)) /\
  obj (combine names x) = Ok w /\
  w = - coloss targets b c l kw outs (comean km sn train targets k c q (kw_or (combine names x) "length_scale" (reals s (nm_loc nl)))
         (kw_or (combine names x) "noise" (reals s (nm_loc nv)))).
Proof.
  pose proof TR as (_ & (l1 & v1 & (nl & nv & EK & EN & _) & _) & SNF). exists nl, nv. intros x BX.
  destruct (shear_candidate_value km sn s F names x0 bounds MO BO PB EO TR ls EX slogdet eps0 l kw mask outs draws train targets ix nn n b k c q
    BK SC KW HL t ET x BX) as (s' & F' & w & E & _ & OB & LV & _).
  destruct (shear_candidate km sn s F names x0 bounds MO BO PB EO TR x BX)
    as (s1 & F1 & nl1 & nv1 & nl' & nv' & E1 & _ & EK1 & EN1 & EK' & EN' & KL & KN & _ & P1 & P2 & _).
  rewrite E in E1. injection E1 as <- <-. rewrite EK in EK1. injection EK1 as <-. rewrite EN in EN1. injection EN1 as <-.
  exists w. rewrite KL, KN. split; [exact P1|]. split; [exact P2|]. split; [exact OB|].
  apply (value_formula km sn train targets k b c q s' F' l kw outs w); [|exists nl', nv'; auto|exact LV].
  unfold scored in SC. destruct mask as [m|]; [destruct SC as (-> & _ & H); exact H|]. subst outs. intros o [<-|[<-|[<-|[]]]]; lia.
Qed.

Lemma shear_cont x : in_box x bounds -> forall eps, 0 < eps -> exists d, 0 < d /\ forall y, in_box y bounds -> point_close x y d ->
  exists vx vy, obj (combine names x) = Ok vx /\ obj (combine names y) = Ok vy /\ Rabs (vy - vx) < eps.
Proof.
  intros BX eps EPS. destruct shear_params as (nl & nv & H).
  destruct (H x BX) as (vx & P1 & P2 & Ex & Vx).
  set (len := fun y => kw_or (combine names y) "length_scale" (reals s (nm_loc nl))) in *.
  set (v := fun y => kw_or (combine names y) "noise" (reals s (nm_loc nv))) in *.
  set (near := fun d y => point_close x y d).
  assert (MON : forall d d' u, near d u -> d <= d' -> near d' u).
  { intros d d' u H1 L. unfold near in *. clear -H1 L. induction H1; constructor; auto. lra. }
  assert (TLn : tends near len (len x)).
  { intros e E0. exists e. split; [exact E0|]. intros y NY. apply kw_or_close; auto. }
  assert (TVn : tends near v (v x)).
  { intros e E0. exists e. split; [exact E0|]. intros y NY. apply kw_or_close; auto. }
  assert (TC : tends near (fun y => coloss targets b c l kw outs (comean km sn train targets k c q (len y) (v y)))
     (coloss targets b c l kw outs (comean km sn train targets k c q (len x) (v x)))).
  { apply (tends_coloss targets b c near MON l kw outs (fun y => comean km sn train targets k c q (len y) (v y))). intros z o.
    apply (tends_comean km sn train targets k c q near MON len v (len x) (v x) P1 P2 TLn TVn). }
  destruct (TC eps EPS) as (d & D & HD). exists d. split; [exact D|]. intros y BY NY.
  destruct (H y BY) as (vy & _ & _ & Ey & Vy). exists vx, vy. split; [exact Ex|]. split; [exact Ey|].
  specialize (HD y NY). cbv beta in HD. rewrite Vx, Vy. fold (len x) (v x) (len y) (v y).
  match goal with |- Rabs (- ?a - - ?b) < _ => replace (- a - - b) with (- (a - b)) by ring end. rewrite Rabs_Ropp. exact HD.
Qed.

Lemma shear_max : finite_bounds bounds -> exists x vx, in_box x bounds /\ obj (combine names x) = Ok vx /\
  forall y, in_box y bounds -> exists vy, obj (combine names y) = Ok vy /\ vy <= vx.
Proof.
  intros FB. set (val := fun x => match obj (combine names x) with Ok v => v | Err _ => 0 end).
  assert (TOT : forall y, in_box y bounds -> exists v, obj (combine names y) = Ok v).
  { intros y BY. destruct shear_params as (nl & nv & H). destruct (H y BY) as (w & _ & _ & E & _). eauto. }
  destruct (box_max bounds val FB (box_nonempty s F names x0 bounds MO BO PB EO)) as (x & BX & MX).
  - intros x BX eps EPS. destruct (shear_cont x BX eps EPS) as (d & D & H). exists d. split; [exact D|]. intros y BY PC.
    destruct (H y BY PC) as (vx & vy & Ex & Ey & L). unfold val. rewrite Ex, Ey. exact L.
  - destruct (TOT x BX) as (vx & Ex). exists x, vx. split; [exact BX|]. split; [exact Ex|]. intros y BY. destruct (TOT y BY) as (vy & Ey).
    exists vy. split; [exact Ey|]. specialize (MX y BY). unfold val in MX. rewrite Ex, Ey in MX. exact MX.
Qed.
End Objective.
