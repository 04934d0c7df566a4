(** Shear predictions depend continuously on the model, the survey and the responses together. *)
From Coq Require Import Lia Lra.
From Coquelicot Require Import Coquelicot.
From Verif Require Import Base BaseFacts NdModel NdFacts RSum LinAlgModel LinAlgSpec LinAlgFacts Gauss
  GPModel NoiseModel NoiseProofs MuyGPSModel GPSpec GPTheorems TensorModel TensorSpec TensorProofs KernelLemmas
  HyperModel HyperSpec NamedModel NamedSpec KernelModel KernelSpec KernelLemmas FlowSpec LossModel LossSpec ChassisModel ChassisSpec WorkSpec FarSpec FarProofs
  TrainSpec ContSpec ContProofs ContProofs2
  ShearModel ShearSpec ShearFlowSpec ShearProofs ShearFlow ShearEdge ShearTrainModel ShearTrainSpec ShearTrainProofs ShearTrainProofs2
  ShearBestSpec ShearBestProofs ShearContSpec.
Local Open Scope R_scope.

Section Limit.
Context {T : Type}.
Variable near : R -> T -> Prop.
Hypothesis MON : forall d d' t, near d t -> d <= d' -> near d' t.

Lemma tends_pow m f a : tends near f a -> tends near (fun t => f t ^ m) (a ^ m).
Proof. intros F. apply (tends_comp near (fun r => r ^ m)); [reg|exact F]. Qed.

Lemma tends_cform a c (r u v : T -> R) r0 u0 v0 : 0 < r0 -> tends near r r0 -> tends near u u0 -> tends near v v0 ->
  tends near (fun t => cform (r t) a c (u t) (v t)) (cform r0 a c u0 v0).
Proof.
  intros R0 TR TU TV.
  assert (TE : tends near (fun t => exp (- (u t ^ 2 + v t ^ 2) / (2 * r t))) (exp (- (u0 ^ 2 + v0 ^ 2) / (2 * r0)))).
  { apply (tends_exp near), (tends_div near MON); [lra| |apply (tends_scal near); exact TR].
    apply (tends_opp near), (tends_plus near MON); apply tends_pow; assumption. }
  assert (P4 : r0 ^ 4 <> 0) by (apply pow_nonzero; lra).
  unfold cform. destruct (obs a), (obs c); unfold kk_fn, kg1_fn, kg2_fn, g1g1_fn, g1g2_fn, g2g2_fn; cbv zeta;
    repeat first [exact TR|exact TU|exact TV|exact TE|apply tends_const|apply tends_pow|apply (tends_div near MON); [exact P4| |]
                 |apply (tends_mult near MON)|apply (tends_minus near MON)|apply (tends_plus near MON)].
Qed.

Variables (km : shear_model) (sn : bool) (k b : nat) (r : nat -> nat) (q : nat -> nat -> nat).
Variables (len v sc : T -> R) (test train targets : T -> nd R) (len0 v0 sc0 : R) (test0 train0 targets0 : nd R).
Hypothesis L0 : 0 < len0.
Hypothesis V0 : 0 < v0.
Hypothesis TL : tends near len len0.
Hypothesis TV : tends near v v0.
Hypothesis TS : tends near sc sc0.
Hypothesis TTE : forall x f, (x < b)%nat -> (f < 2)%nat -> tends near (fun t => feature (test t) (r x) f) (feature test0 (r x) f).
Hypothesis TTR : forall x i f, (x < b)%nat -> (i < k)%nat -> (f < 2)%nat -> tends near (fun t => feature (train t) (q x i) f) (feature train0 (q x i) f).
Hypothesis TTG : forall x i o, (x < b)%nat -> (i < k)%nat -> (o < 3)%nat -> tends near (fun t => at_ (targets t) [q x i; o]) (at_ targets0 [q x i; o]).
Notation N := (observed km * k)%nat.
Definition dA (l' v' : R) (tr : nd R) (x : nat) := matA km sn l' v' tr k (q x).
Definition dk (l' : R) (tr te : nd R) (x o : nat) := crs km l' tr k (q x) (feature te (r x)) o.
Definition dy (tg : nd R) (x p : nat) : R := at_ tg [q x (p mod k)%nat; (unobserved km + p / k)%nat].
Definition dmean (l' v' : R) (tr te tg : nd R) (x o : nat) : R := dot N (gsol N (dA l' v' tr x) (dk l' tr te x o)) (dy tg x).
Definition dvar (l' v' s' : R) (tr te : nd R) (x o o' : nat) : R :=
  s' * (shear_cov l' (obs o) (obs o') (feature te (r x)) (feature te (r x)) - dot N (gsol N (dA l' v' tr x) (dk l' tr te x o)) (dk l' tr te x o')).

Lemma tends_cov2 a a' (X Y : T -> nat -> R) X0 Y0 : (forall f, (f < 2)%nat -> tends near (fun t => X t f) (X0 f)) ->
  (forall f, (f < 2)%nat -> tends near (fun t => Y t f) (Y0 f)) ->
  tends near (fun t => shear_cov (len t) (obs a) (obs a') (X t) (Y t)) (shear_cov len0 (obs a) (obs a') X0 Y0).
Proof.
  intros TX TY. rewrite cov_closed by lra.
  apply (tends_ext near MON (fun t => cform (len t) a a' (X t O - Y t O) (X t 1%nat - Y t 1%nat))).
  - apply (ev_imp near _ _ (tends_pos near len len0 L0 TL)). intros t Ht. rewrite cov_closed by lra. reflexivity.
  - apply tends_cform; [exact L0|exact TL| |]; apply (tends_minus near MON); auto.
Qed.

Lemma stack_lt p : (p < N)%nat -> (p mod k < k)%nat /\ (unobserved km + p / k < 3)%nat.
Proof.
  intros Hp. assert (k <> 0)%nat by (intros ->; lia). split; [apply Nat.mod_upper_bound; auto|].
  assert (p / k < observed km)%nat by (apply Nat.div_lt_upper_bound; lia). destruct km; cbn in *; lia.
Qed.

Lemma tends_dA x p p' : (x < b)%nat -> (p < N)%nat -> (p' < N)%nat -> tends near (fun t => dA (len t) (v t) (train t) x p p') (dA len0 v0 train0 x p p').
Proof.
  intros Hx Hp Hp'. unfold dA, matA, plus_diag, stacked_cov, pts. destruct (stack_lt p Hp) as [P1 _]. destruct (stack_lt p' Hp') as [P2 _].
  apply (tends_plus near MON).
  - apply (tends_cov2 _ _ (fun t => feature (train t) (q x (p mod k)%nat)) (fun t => feature (train t) (q x (p' mod k)%nat))); intros f Hf; apply TTR; auto.
  - destruct (Nat.eqb p p'); [|apply tends_const]. unfold obs_noise. destruct sn; [|exact TV]. unfold shear_noise.
    destruct (p <? k)%nat; [apply (tends_scal near)|]; exact TV.
Qed.
Lemma tends_dk x o p : (x < b)%nat -> (p < N)%nat -> tends near (fun t => dk (len t) (train t) (test t) x o p) (dk len0 train0 test0 x o p).
Proof.
  intros Hx Hp. unfold dk, crs, stacked_cross, pts. destruct (stack_lt p Hp) as [P1 _].
  apply (tends_cov2 _ _ (fun t => feature (train t) (q x (p mod k)%nat)) (fun t => feature (test t) (r x))); intros f Hf; [apply TTR|apply TTE]; auto.
Qed.
Lemma tends_dsol x o i : (x < b)%nat -> (i < N)%nat ->
  tends near (fun t => gsol N (dA (len t) (v t) (train t) x) (dk (len t) (train t) (test t) x o) i) (gsol N (dA len0 v0 train0 x) (dk len0 train0 test0 x o) i).
Proof.
  intros Hx Hi.
  assert (PD0 : pd N (dA len0 v0 train0 x)) by (apply matA_pd; auto).
  destruct (pd_coercive N (dA len0 v0 train0 x) (matA_sym km sn len0 v0 train0 k (q x) L0) PD0) as (c0 & C0 & CO).
  apply (tends_solve near MON N (fun t => dA (len t) (v t) (train t) x) (fun t => dk (len t) (train t) (test t) x o)
    (fun t => gsol N (dA (len t) (v t) (train t) x) (dk (len t) (train t) (test t) x o))
    (dA len0 v0 train0 x) (dk len0 train0 test0 x o) (gsol N (dA len0 v0 train0 x) (dk len0 train0 test0 x o)) c0 C0 CO); auto.
  - apply gsol_solves, pd_nonsingular, PD0.
  - intros p p' Hp Hp'. apply tends_dA; auto.
  - intros p Hp. apply tends_dk; auto.
  - apply (ev_imp near _ _ (ev_and near MON _ _ (tends_pos near len len0 L0 TL) (tends_pos near v v0 V0 TV))).
    intros t [H1 H2]. apply gsol_solves, pd_nonsingular, matA_pd; auto.
Qed.
Lemma tends_dmean x o : (x < b)%nat -> tends near (fun t => dmean (len t) (v t) (train t) (test t) (targets t) x o) (dmean len0 v0 train0 test0 targets0 x o).
Proof.
  intros Hx. unfold dmean, dot.
  apply (tends_rsum near MON N (fun i t => gsol N (dA (len t) (v t) (train t) x) (dk (len t) (train t) (test t) x o) i * dy (targets t) x i)).
  intros i Hi. apply (tends_mult near MON); [apply tends_dsol; auto|]. destruct (stack_lt i Hi) as [P1 P2]. apply TTG; auto.
Qed.
Lemma tends_dvar x o o' : (x < b)%nat -> tends near (fun t => dvar (len t) (v t) (sc t) (train t) (test t) x o o') (dvar len0 v0 sc0 train0 test0 x o o').
Proof.
  intros Hx. unfold dvar. apply (tends_mult near MON); [exact TS|]. apply (tends_minus near MON).
  - apply (tends_cov2 _ _ (fun t => feature (test t) (r x)) (fun t => feature (test t) (r x))); intros f Hf; apply TTE; auto.
  - unfold dot. apply (tends_rsum near MON N (fun i t => gsol N (dA (len t) (v t) (train t) x) (dk (len t) (train t) (test t) x o) i * dk (len t) (train t) (test t) x o' i)).
    intros i Hi. apply (tends_mult near MON); [apply tends_dsol; auto|apply tends_dk; auto].
Qed.
End Limit.


Section Post.
Variable ls : lsolver.
Hypothesis EX : exact_solver ls.
Variables (km : shear_model) (sn : bool) (ix nn : nd Z) (m n b k : nat).

Lemma posterior_formula s F l v test train targets : shear_trainable km sn s F -> shear_values s F l v -> shear_inputs test train targets ix nn m n b k ->
  0 < l /\ 0 < v /\ exists mean var, shear_posterior ls km sn s F test train targets ix nn = Ok (mean, var) /\
    forall x o, (x < b)%nat -> (o < 3)%nat ->
      at_ mean [x; o] = dmean km sn k (fun x => row_of m (at_ ix [x])) (fun x i => row_of n (at_ nn [x; i])) l v train test targets x o /\
      forall o', (o' < 3)%nat -> at_ var [x; o; o'] =
        dvar km sn k (fun x => row_of m (at_ ix [x])) (fun x i => row_of n (at_ nn [x; i])) l v (f_var_scale F) train test x o o'.
Proof.
  intros TR SV IN.
  assert (PV : 0 < l /\ 0 < v).
  { destruct TR as (_ & (l' & v' & (nl1 & nv1 & EK1 & EN1 & -> & ->) & H1 & H2) & _). destruct SV as (nl & nv & EK & EN & -> & ->).
    rewrite EK in EK1. rewrite EN in EN1. injection EK1 as ->. injection EN1 as ->. auto. }
  destruct PV as [Hl Hv]. split; [exact Hl|]. split; [exact Hv|].
  destruct (shear_posterior_ok ls EX km sn s F l v test train targets ix nn m n b k TR SV IN) as (mean & var & E & _ & _ & H).
  exists mean, var. split; [exact E|]. intros x o Hx Ho.
  destruct (H x (row_of m (at_ ix [x])) (fun i => row_of n (at_ nn [x; i])) o Hx Ho) as ((u & U & ->) & (w & W & VA) & _).
  { apply row_of_selects. apply (si_ixok _ _ _ _ _ _ _ _ _ IN). exact Hx. }
  { intros i Hi. apply row_of_selects. apply (si_nnok _ _ _ _ _ _ _ _ _ IN); auto. }
  assert (NS : nonsingular (observed km * k) (matA km sn l v train k (fun i => row_of n (at_ nn [x; i])))) by (apply pd_nonsingular, matA_pd; auto).
  split.
  - apply (gsol_unique _ _ _ u _ NS U).
  - intros o' Ho'. rewrite VA by auto. unfold dvar. f_equal. f_equal. apply (gsol_unique _ _ _ w _ NS W).
Qed.

Lemma shear_continuous s F l v test train targets : shear_trainable km sn s F -> shear_values s F l v -> shear_inputs test train targets ix nn m n b k ->
  forall eps, 0 < eps -> exists d, 0 < d /\ forall s' F' l' v' test' train' targets',
    shear_trainable km sn s' F' -> shear_values s' F' l' v' -> shear_inputs test' train' targets' ix nn m n b k ->
    Rabs (l' - l) < d -> Rabs (v' - v) < d -> Rabs (f_var_scale F' - f_var_scale F) < d ->
    tables_close m 2 test test' d -> tables_close n 2 train train' d -> tables_close n 3 targets targets' d ->
    exists mean var mean' var', shear_posterior ls km sn s F test train targets ix nn = Ok (mean, var) /\
      shear_posterior ls km sn s' F' test' train' targets' ix nn = Ok (mean', var') /\
      forall x o, (x < b)%nat -> (o < 3)%nat -> Rabs (at_ mean' [x; o] - at_ mean [x; o]) < eps /\
        forall o', (o' < 3)%nat -> Rabs (at_ var' [x; o; o'] - at_ var [x; o; o']) < eps.
Proof.
  intros TR SV IN eps EPS.
  destruct (posterior_formula s F l v test train targets TR SV IN) as (Hl & Hv & mean & var & E & FM).
  set (T := ((R * R * R) * (nd R * nd R * nd R))%type).
  set (len := fun t : T => fst (fst (fst t))). set (vv := fun t : T => snd (fst (fst t))). set (sc := fun t : T => snd (fst t)).
  set (te := fun t : T => fst (fst (snd t))). set (tr := fun t : T => snd (fst (snd t))). set (tg := fun t : T => snd (snd t)).
  set (near := fun d (t : T) => (Rabs (len t - l) < d /\ Rabs (vv t - v) < d /\ Rabs (sc t - f_var_scale F) < d) /\
    (shape (te t) = [m; 2]%nat /\ shape (tr t) = [n; 2]%nat) /\
    tables_close m 2 test (te t) d /\ tables_close n 2 train (tr t) d /\ tables_close n 3 targets (tg t) d).
  assert (MON : forall d d' t, near d t -> d <= d' -> near d' t).
  { intros d d' t ((H1 & H2 & H3) & H4 & H5 & H6 & H7) L. split; [repeat split; lra|]. split; [exact H4|].
    repeat split; intros i f Hi Hf; (eapply Rlt_le_trans; [|exact L]); auto. }
  set (r := fun x => row_of m (at_ ix [x])) in *. set (q := fun x i => row_of n (at_ nn [x; i])) in *.
  assert (Rr : forall x, (x < b)%nat -> (r x < m)%nat).
  { intros x Hx. apply (row_of_selects m (at_ ix [x])). apply (si_ixok _ _ _ _ _ _ _ _ _ IN). exact Hx. }
  assert (Rq : forall x i, (x < b)%nat -> (i < k)%nat -> (q x i < n)%nat).
  { intros x i Hx Hi. apply (row_of_selects n (at_ nn [x; i])). apply (si_nnok _ _ _ _ _ _ _ _ _ IN); auto. }
  assert (TTE : forall x f, (x < b)%nat -> (f < 2)%nat -> tends near (fun t => feature (te t) (r x) f) (feature test (r x) f)).
  { intros x f Hx Hf e E0. exists e. split; [exact E0|]. intros t (_ & (S1 & _) & H & _). unfold feature. rewrite S1, (si_test _ _ _ _ _ _ _ _ _ IN). apply H; auto. }
  assert (TTR : forall x i f, (x < b)%nat -> (i < k)%nat -> (f < 2)%nat -> tends near (fun t => feature (tr t) (q x i) f) (feature train (q x i) f)).
  { intros x i f Hx Hi Hf e E0. exists e. split; [exact E0|]. intros t (_ & (_ & S2) & _ & H & _). unfold feature.
    rewrite S2, (si_train _ _ _ _ _ _ _ _ _ IN). apply H; auto. }
  assert (TTG : forall x i o, (x < b)%nat -> (i < k)%nat -> (o < 3)%nat -> tends near (fun t => at_ (tg t) [q x i; o]) (at_ targets [q x i; o])).
  { intros x i o Hx Hi Ho e E0. exists e. split; [exact E0|]. intros t (_ & _ & _ & _ & H). apply H; auto. }
  assert (TL : tends near len l) by (intros e E0; exists e; split; [exact E0|]; intros t ((H & _) & _); exact H).
  assert (TV : tends near vv v) by (intros e E0; exists e; split; [exact E0|]; intros t ((_ & H & _) & _); exact H).
  assert (TS : tends near sc (f_var_scale F)) by (intros e E0; exists e; split; [exact E0|]; intros t ((_ & _ & H) & _); exact H).
  assert (EVM : eventually near (fun t => forall x, (x < b)%nat -> forall o, (o < 3)%nat ->
    Rabs (dmean km sn k r q (len t) (vv t) (tr t) (te t) (tg t) x o - dmean km sn k r q l v train test targets x o) < eps)).
  { apply (ev_all near MON b (fun x t => forall o, (o < 3)%nat ->
      Rabs (dmean km sn k r q (len t) (vv t) (tr t) (te t) (tg t) x o - dmean km sn k r q l v train test targets x o) < eps)). intros x Hx.
    apply (ev_all near MON 3 (fun o t => Rabs (dmean km sn k r q (len t) (vv t) (tr t) (te t) (tg t) x o - dmean km sn k r q l v train test targets x o) < eps)).
    intros o Ho. exact (tends_dmean near MON km sn k b r q len vv te tr tg l v test train targets Hl Hv TL TV TTE TTR TTG x o Hx eps EPS). }
  assert (EVV : eventually near (fun t => forall x, (x < b)%nat -> forall o, (o < 3)%nat -> forall o', (o' < 3)%nat ->
    Rabs (dvar km sn k r q (len t) (vv t) (sc t) (tr t) (te t) x o o' - dvar km sn k r q l v (f_var_scale F) train test x o o') < eps)).
  { apply (ev_all near MON b (fun x t => forall o, (o < 3)%nat -> forall o', (o' < 3)%nat ->
      Rabs (dvar km sn k r q (len t) (vv t) (sc t) (tr t) (te t) x o o' - dvar km sn k r q l v (f_var_scale F) train test x o o') < eps)). intros x Hx.
    apply (ev_all near MON 3 (fun o t => forall o', (o' < 3)%nat ->
      Rabs (dvar km sn k r q (len t) (vv t) (sc t) (tr t) (te t) x o o' - dvar km sn k r q l v (f_var_scale F) train test x o o') < eps)). intros o Ho.
    apply (ev_all near MON 3 (fun o' t =>
      Rabs (dvar km sn k r q (len t) (vv t) (sc t) (tr t) (te t) x o o' - dvar km sn k r q l v (f_var_scale F) train test x o o') < eps)). intros o' Ho'.
    exact (tends_dvar near MON km sn k b r q len vv sc te tr tg l v (f_var_scale F) test train targets Hl Hv TL TV TS TTE TTR TTG x o o' Hx eps EPS). }
  destruct (ev_and near MON _ _ EVM EVV) as (d & D & H). exists d. split; [exact D|].
  intros s' F' l' v' test' train' targets' TR' SV' IN' Cl Cv Cs Ce Cr Cg.
  destruct (posterior_formula s' F' l' v' test' train' targets' TR' SV' IN') as (_ & _ & mean' & var' & E' & FM').
  exists mean, var, mean', var'. split; [exact E|]. split; [exact E'|].
  destruct (H ((l', v', f_var_scale F'), (test', train', targets'))) as [HM HV].
  { split; [repeat split; assumption|]. split; [split; [apply (si_test _ _ _ _ _ _ _ _ _ IN')|apply (si_train _ _ _ _ _ _ _ _ _ IN')]|]. auto. }
  intros x o Hx Ho. destruct (FM x o Hx Ho) as [EM EV]. destruct (FM' x o Hx Ho) as [EM' EV'].
  split; [rewrite EM, EM'; apply (HM x Hx o Ho)|]. intros o' Ho'. rewrite EV, EV' by auto. apply (HV x Hx o Ho o' Ho').
Qed.
End Post.
