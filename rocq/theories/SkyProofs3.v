(** Lemmas for C118: neighbours, the training objective, units of length. *)
From Coq Require Import Lia Lra.
From Verif Require Import Base BaseFacts NdModel NdFacts RSum LinAlgModel LinAlgSpec LinAlgFacts GPModel NoiseModel NoiseProofs WellPosedProofs GPTheorems
  MuyGPSModel GPSpec MuyGPSProofs TensorModel TensorSpec TensorProofs KernelSpec HyperModel HyperSpec NamedModel NamedSpec KernelModel
  FlowSpec LossModel LossSpec LossProofs ChassisModel ChassisSpec ChassisProofs ObjectiveProofs WorkSpec TrainSpec TrainProofs TrainProofs2
  ShearModel ShearSpec ShearFlowSpec ShearProofs ShearLemmas ShearPsd ShearGram ShearFlow
  ShearTrainModel ShearTrainSpec ShearTrainProofs ShearTrainProofs2 UnitsSpec SkySpec SkyProofs SkyProofs2.
Local Open Scope R_scope.

(** ** Neighbours *)
Lemma row_dist_moved g test test' train train' m n x a : rigid g -> shape test = [m; 2]%nat -> shape train = [n; 2]%nat ->
  moved g test test' m -> moved g train train' n -> (x < m)%nat -> (a < n)%nat -> row_dist test' train' x a = row_dist test train x a.
Proof.
  intros HR S1 S2 [M1 V1] [M2 V2] Hx Ha. unfold row_dist, sqdist, feature_count. rewrite M2, S2. cbn [rsum].
  rewrite !V1, !V2 by lia. cbn [move]. unfold rigid in HR.
  assert (G : msign g * msign g = 1) by (unfold msign; destruct (mflip g); ring).
  set (u := feature test x 0 - feature train a 0). set (v := feature test x 1 - feature train a 1).
  transitivity ((mc g ^ 2 + ms g ^ 2) * (u ^ 2 + (msign g * msign g) * v ^ 2)); [unfold u, v; ring|]. rewrite HR, G. unfold u, v. ring.
Qed.

Lemma nearest_moved g test test' train train' m n x k q : rigid g -> shape test = [m; 2]%nat -> shape train = [n; 2]%nat ->
  moved g test test' m -> moved g train train' n -> (x < m)%nat -> nearest_rows test train n x k q -> nearest_rows test' train' n x k q.
Proof.
  intros HR S1 S2 M1 M2 Hx (B & I & SS & OUT).
  assert (E : forall a, (a < n)%nat -> row_dist test' train' x a = row_dist test train x a) by (intros; eapply row_dist_moved; eauto).
  split; [exact B|]. split; [exact I|]. split.
  - intros i j Hij Hj. rewrite !E by (apply B; lia). auto.
  - intros a Ha NI j Hj. rewrite !E by (auto; apply B; lia). auto.
Qed.

(** ** Training *)
Lemma moved_batch g train train' targets targets' ix nn n b k c q : moved g train train' n -> turned g targets targets' n ->
  shear_batch train targets ix nn n b k c q -> shear_batch train' targets' ix nn n b k c q.
Proof.
  intros [M _] [T _] (S1 & S2 & H). split; [exact M|]. split; [exact T|exact H].
Qed.

Lemma turn_square g f : rigid g -> rsum 3 (fun o => rsum 3 (fun o' => turn g o o' * f o') ^ 2) = rsum 3 (fun o => f o ^ 2).
Proof.
  intros HR. pose proof (turn_dot g 0 3 1 HR (or_introl (conj eq_refl eq_refl)) Nat.lt_0_1 f f) as E. cbn [plus] in E.
  transitivity (rsum 3 (fun c => rsum 3 (fun a => turn g c a * f a) * rsum 3 (fun a => turn g c a * f a))); [apply rsum_ext; intros; ring|].
  rewrite E. apply rsum_ext. intros; ring.
Qed.

Section Train.
Variable ls : lsolver.
Hypothesis EX : exact_solver ls.
Variable slogdet : nat -> mat -> R * R.
Variable eps : R.

Lemma sky_training g km sn s F kw draws train train' targets targets' ix nn n b k c q names x0 bounds t t' :
  rigid g -> moved g train train' n -> turned g targets targets' n ->
  model_ok s F -> bounds_ok s F -> positive_bounds s F -> get_opt_params s (f_attr F) = Ok (names, x0, bounds) ->
  shear_trainable km sn s F -> shear_batch train targets ix nn n b k c q -> loss_kw_ok kw ->
  shear_train_tensors km None ix nn train targets = Ok t -> shear_train_tensors km None ix nn train' targets' = Ok t' ->
  forall x, in_box x bounds -> exists w,
    shear_obj_fn ls slogdet eps km sn s F Mse kw None draws t (combine names x) = Ok w /\
    shear_obj_fn ls slogdet eps km sn s F Mse kw None draws t' (combine names x) = Ok w.
Proof.
  intros HR M T MO BO PB EO TR BK KW Et Et' x BX.
  pose proof (moved_batch g train train' targets targets' ix nn n b k c q M T BK) as BK'.
  destruct (shear_candidate km sn s F names x0 bounds MO BO PB EO TR x BX)
    as (s' & F' & nl & nv & nl' & nv' & _ & _ & EK & EN & _ & _ & KL & KN & P1 & P2 & P3 & _).
  pose proof TR as (BD & _ & SNF). rewrite <- BD in EK, EN.
  assert (L1 : 0 < kw_or (combine names x) "length_scale" (reals s (nm_loc nl))) by (rewrite KL; exact P2).
  assert (L2 : 0 < kw_or (combine names x) "noise" (reals s (nm_loc nv))) by (rewrite KN; exact P3).
  destruct (obj_value ls EX slogdet eps km sn s F Mse kw None [0; 1; 2]%nat draws train targets ix nn n b k c q t nl nv SNF EK EN P1 BK
    eq_refl KW (or_introl eq_refl) Et (combine names x) L1 L2) as (mean & L & E1 & CK & SL).
  destruct (obj_value ls EX slogdet eps km sn s F Mse kw None [0; 1; 2]%nat draws train' targets' ix nn n b k c q t' nl nv SNF EK EN P1 BK'
    eq_refl KW (or_introl eq_refl) Et' (combine names x) L1 L2) as (mean' & L' & E1' & CK' & SL').
  cbv zeta in *. exists (- L). split; [exact E1|]. rewrite E1'. do 2 f_equal.
  cbn [shear_loss List.length] in SL, SL'. assert (EL : L = rsum b (fun x => rsum 3 (fun i => (mean x (nth i [0; 1; 2]%nat O) - at_ targets [c x; nth i [0; 1; 2]%nat O]) ^ 2)) / (INR b * INR 3)) by congruence.
  assert (EL' : L' = rsum b (fun x => rsum 3 (fun i => (mean' x (nth i [0; 1; 2]%nat O) - at_ targets' [c x; nth i [0; 1; 2]%nat O]) ^ 2)) / (INR b * INR 3)) by congruence.
  rewrite EL, EL'. f_equal. apply rsum_ext. intros y Hy.
  destruct BK as (S1 & S2 & Hb & Hk & Hbk & SI & HC & SN & HN).
  transitivity (rsum 3 (fun o => (mean' y o - at_ targets' [c y; o]) ^ 2)).
  { cbn [rsum nth]. reflexivity. }
  transitivity (rsum 3 (fun o => (mean y o - at_ targets [c y; o]) ^ 2)).
  2:{ cbn [rsum nth]. reflexivity. }
  rewrite <- (turn_square g (fun o => mean y o - at_ targets [c y; o]) HR). apply rsum_ext. intros o Ho. f_equal.
  destruct (HC y Hy) as [_ Hc].
  rewrite (cok_mean g km sn _ _ k HR L1 L2 SNF ltac:(lia) train train' targets targets' n (q y) M T
    (fun i Hi => proj2 (HN y i Hy Hi)) (feature train (c y)) (feature train' (c y)) (fun f Hf => proj2 M (c y) f Hc Hf)
    (mean y) (mean' y) (fun o Ho => CK y o Hy Ho) (fun o Ho => CK' y o Hy Ho) o Ho).
  rewrite (proj2 T (c y) o Hc Ho). rewrite <- rsum_minus. apply rsum_ext. intros; ring.
Qed.
End Train.

(** ** Units of length and of the responses *)
Lemma cov_stretch l a o p x y x' y' : 0 < l -> a <> 0 -> (o < 3)%nat -> (p < 3)%nat ->
  (forall f, (f < 2)%nat -> x' f = a * x f) -> (forall f, (f < 2)%nat -> y' f = a * y f) ->
  shear_cov (a ^ 2 * l) (obs o) (obs p) x' y' = / a ^ 4 * shear_cov l (obs o) (obs p) x y.
Proof.
  intros Hl Ha Ho Hp HX HY.
  assert (A2 : a ^ 2 <> 0) by (apply pow_nonzero; exact Ha).
  assert (L2 : a ^ 2 * l <> 0) by (apply Rmult_integral_contrapositive_currified; [exact A2|lra]).
  rewrite !cov_closed by (auto; lra). rewrite !cform_poly by (auto; lra). rewrite !HX, !HY by lia.
  set (u := x O - y O). set (v := x 1%nat - y 1%nat).
  replace (a * x O - a * y O) with (a * u) by (unfold u; ring). replace (a * x 1%nat - a * y 1%nat) with (a * v) by (unfold v; ring).
  replace (- ((a * u) ^ 2 + (a * v) ^ 2) / (2 * (a ^ 2 * l))) with (- (u ^ 2 + v ^ 2) / (2 * l)) by (field; split; [lra|exact Ha]).
  set (e := exp _). clearbody e.
  destruct o as [|[|[|o]]]; [| | |lia]; (destruct p as [|[|[|p]]]; [| | |lia]); cbn [pform]; unfold al; field; repeat split; auto; lra.
Qed.

Lemma stretched_cokriging km sn l v a c train train' targets targets' n k rows point point' : 0 < l -> 0 < v -> a <> 0 ->
  (0 < k)%nat -> (forall i, (i < k)%nat -> (rows i < n)%nat) ->
  stretched a train train' n -> (forall i o, (i < n)%nat -> (o < 3)%nat -> at_ targets' [i; o] = c * at_ targets [i; o]) ->
  (forall f, (f < 2)%nat -> point' f = a * point f) ->
  forall o, (o < 3)%nat ->
  (forall mean mean', cokriging km sn l v train targets k rows point o mean ->
     cokriging km sn (a ^ 2 * l) (v / a ^ 4) train' targets' k rows point' o mean' -> mean' = c * mean) /\
  (forall scale cov cov', cokriging_covariance km sn l v scale train k rows point o cov ->
     cokriging_covariance km sn (a ^ 2 * l) (v / a ^ 4) scale train' k rows point' o cov' ->
     forall p, (p < 3)%nat -> cov' p = cov p / a ^ 4).
Proof.
  intros Hl Hv Ha Hk RI [_ ST] TG PP o Ho.
  assert (A4 : 0 < a ^ 4).
  { replace (a ^ 4) with ((a ^ 2) * (a ^ 2)) by ring. assert (0 < a ^ 2) by (replace (a ^ 2) with (a * a) by ring; nra). nra. }
  assert (A2 : 0 < a ^ 2 * l) by (apply Rmult_lt_0_compat; [replace (a ^ 2) with (a * a) by ring; nra|exact Hl]).
  assert (Hv' : 0 < v / a ^ 4) by (apply Rdiv_lt_0_compat; assumption).
  set (pt := fun i => feature train (rows i)). set (pt' := fun i => feature train' (rows i)).
  set (N := (observed km * k)%nat).
  assert (B : forall p, (p < N)%nat -> (unobserved km + p / k < 3 /\ p mod k < k /\ p / k < observed km)%nat).
  { intros p Hp. destruct (pdiv (unobserved km) (observed km) k (shape_sr km) Hk p Hp) as (P1 & P2 & _).
    destruct (shape_sr km) as [[? ?]|[? ?]]; lia. }
  assert (MAT : forall p q, (p < N)%nat -> (q < N)%nat ->
     plus_diag (stacked_cov (a ^ 2 * l) (unobserved km) k pt') (obs_noise sn (v / a ^ 4) k) p q =
     / a ^ 4 * plus_diag (stacked_cov l (unobserved km) k pt) (obs_noise sn v k) p q).
  { intros p q Hp Hq. destruct (B p Hp) as (B1 & B2 & _). destruct (B q Hq) as (B3 & B4 & _). unfold plus_diag, stacked_cov.
    rewrite (cov_stretch l a (unobserved km + p / k) (unobserved km + q / k) (pt (p mod k)%nat) (pt (q mod k)%nat)); auto;
      try (intros f Hf; apply ST; auto).
    assert (ON : obs_noise sn (v / a ^ 4) k p = / a ^ 4 * obs_noise sn v k p).
    { destruct sn; cbn [obs_noise]; unfold shear_noise, flat_noise; try destruct (p <? k)%nat; field; exact Ha. }
    rewrite ON. destruct (p =? q)%nat; ring. }
  assert (CRS : forall o p, (o < 3)%nat -> (p < N)%nat -> stacked_cross (a ^ 2 * l) (unobserved km) k pt' point' o p =
     / a ^ 4 * stacked_cross l (unobserved km) k pt point o p).
  { intros o1 p Ho1 Hp. destruct (B p Hp) as (B1 & B2 & _). unfold stacked_cross.
    apply (cov_stretch l a (unobserved km + p / k) o1 (pt (p mod k)%nat) point); auto. intros f Hf; apply ST; auto. }
  assert (SOL : forall w w', solves N (plus_diag (stacked_cov l (unobserved km) k pt) (obs_noise sn v k)) w (stacked_cross l (unobserved km) k pt point o) ->
    solves N (plus_diag (stacked_cov (a ^ 2 * l) (unobserved km) k pt') (obs_noise sn (v / a ^ 4) k)) w' (stacked_cross (a ^ 2 * l) (unobserved km) k pt' point' o) ->
    forall p, (p < N)%nat -> w' p = w p).
  { intros w w' Hw Hw'.
    apply (solves_unique N (plus_diag (stacked_cov l (unobserved km) k pt) (obs_noise sn v k)) w' w (stacked_cross l (unobserved km) k pt point o)); [| |exact Hw].
    - apply stacked_ns; auto. intros; apply obs_noise_pos; auto.
    - intros p Hp. specialize (Hw' p Hp). rewrite CRS in Hw' by auto.
      rewrite (rsum_ext N _ (fun q => / a ^ 4 * (plus_diag (stacked_cov l (unobserved km) k pt) (obs_noise sn v k) p q * w' q))) in Hw'.
      2:{ intros q Hq. rewrite MAT by auto. ring. }
      rewrite rsum_scal in Hw'. apply Rmult_eq_reg_l in Hw'; [exact Hw'|]. apply Rinv_neq_0_compat. lra. }
  split.
  - intros mean mean' (w & Hw & ->) (w' & Hw' & ->). pose proof (SOL w w' Hw Hw') as U.
    unfold dot. rewrite <- rsum_scal. apply rsum_ext. intros p Hp. destruct (B p Hp) as (B1 & B2 & _). rewrite U by auto. rewrite TG by auto. ring.
  - intros scale cov cov' [(w & Hw & V) _] [(w' & Hw' & V') _] p Hp. pose proof (SOL w w' Hw Hw') as U. rewrite V, V' by auto.
    rewrite (cov_stretch l a o p point point) by auto.
    assert (ED : dot N w' (stacked_cross (a ^ 2 * l) (unobserved km) k pt' point' p) = / a ^ 4 * dot N w (stacked_cross l (unobserved km) k pt point p)).
    { unfold dot. rewrite <- rsum_scal. apply rsum_ext. intros i Hi. rewrite U, CRS by auto. ring. }
    fold N. change (fun i => feature train' (rows i)) with pt'. change (fun i => feature train (rows i)) with pt. rewrite ED. field. exact Ha.
Qed.

Lemma sky_units ls : exact_solver ls -> forall km sn s F s' F' l v a c test test' train train' targets targets' ix nn m n b k,
  shear_trainable km sn s F -> shear_values s F l v -> shear_trainable km sn s' F' -> shear_values s' F' (a ^ 2 * l) (v / a ^ 4) ->
  f_var_scale F' = f_var_scale F -> a <> 0 ->
  shear_inputs test train targets ix nn m n b k -> stretched a test test' m -> stretched a train train' n ->
  shape targets' = [n; 3]%nat -> (forall i o, (i < n)%nat -> (o < 3)%nat -> at_ targets' [i; o] = c * at_ targets [i; o]) ->
  exists mean var mean' var',
    shear_posterior ls km sn s F test train targets ix nn = Ok (mean, var) /\
    shear_posterior ls km sn s' F' test' train' targets' ix nn = Ok (mean', var') /\
    shape mean = [b; 3]%nat /\ shape mean' = [b; 3]%nat /\ shape var = [b; 3; 3]%nat /\ shape var' = [b; 3; 3]%nat /\
    forall x o, (x < b)%nat -> (o < 3)%nat -> at_ mean' [x; o] = c * at_ mean [x; o] /\
      forall p, (p < 3)%nat -> at_ var' [x; o; p] = at_ var [x; o; p] / a ^ 4.
Proof.
  intros EX km sn s F s' F' l v a c test test' train train' targets targets' ix nn m n b k TR SV TR' SV' FS Ha IN M1 M2 ST TG.
  assert (IN' : shear_inputs test' train' targets' ix nn m n b k).
  { destruct M1 as [M1 _], M2 as [M2 _]. destruct IN. constructor; auto. }
  destruct (shear_posterior_ok ls EX km sn s F l v test train targets ix nn m n b k TR SV IN) as (mean & var & E1 & S1 & S2 & H1).
  destruct (shear_posterior_ok ls EX km sn s' F' _ _ test' train' targets' ix nn m n b k TR' SV' IN') as (mean' & var' & E2 & S1' & S2' & H2).
  exists mean, var, mean', var'. repeat (split; [assumption|]). intros x o Hx Ho.
  assert (Hk : (0 < k)%nat) by (destruct IN; lia).
  assert (POS : 0 < l /\ 0 < v).
  { destruct TR as (_ & (l1 & v1 & SV1 & P1 & P2) & _). destruct SV as (nl & nv & EK & EN & -> & ->).
    destruct SV1 as (nl1 & nv1 & EK1 & EN1 & -> & ->). rewrite EK in EK1. rewrite EN in EN1.
    assert (nl1 = nl /\ nv1 = nv) as [-> ->] by (split; congruence). auto. }
  destruct POS as [Hl Hv].
  destruct (in_range_selects m (at_ ix [x])) as [r Hr]; [apply (si_ixok _ _ _ _ _ _ _ _ _ IN); auto|].
  assert (ROWS : exists rows, forall i, (i < k)%nat -> selects n (at_ nn [x; i]) (rows i)).
  { assert (G : forall j, (j <= k)%nat -> exists rows, forall i, (i < j)%nat -> selects n (at_ nn [x; i]) (rows i)).
    { induction j as [|j IH]; intros Hj; [exists (fun _ => O); intros; lia|].
      destruct IH as [rows Hrows]; [lia|]. destruct (in_range_selects n (at_ nn [x; j])) as [r' Hr'].
      { apply (si_nnok _ _ _ _ _ _ _ _ _ IN); auto. }
      exists (fun i => if (i =? j)%nat then r' else rows i). intros i Hi.
      destruct (Nat.eqb_spec i j); [subst; auto|apply Hrows; lia]. }
    exact (G k (Nat.le_refl k)). }
  destruct ROWS as [rows Hrows].
  assert (RI : forall i, (i < k)%nat -> (rows i < n)%nat) by (intros i Hi; destruct (Hrows i Hi); lia).
  assert (RM : (r < m)%nat) by (destruct Hr; lia).
  assert (PP : forall f, (f < 2)%nat -> feature test' r f = a * feature test r f) by (intros; apply (proj2 M1); auto).
  destruct (stretched_cokriging km sn l v a c train train' targets targets' n k rows (feature test r) (feature test' r) Hl Hv Ha Hk RI M2 TG PP o Ho) as [A B].
  destruct (H1 x r rows o Hx Ho Hr Hrows) as [K1 C1]. destruct (H2 x r rows o Hx Ho Hr Hrows) as [K2 C2]. rewrite FS in C2.
  split; [exact (A _ _ K1 K2)|]. intros p Hp. exact (B _ _ _ C1 C2 p Hp).
Qed.
