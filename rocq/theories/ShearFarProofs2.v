(** Lensing predictions under large noise, and at observed points. *)
From Coq Require Import Lia Lra.
From Verif Require Import Base BaseFacts NdModel NdFacts RSum LinAlgModel LinAlgSpec LinAlgFacts Gauss
  GPModel NoiseModel NoiseProofs MuyGPSModel GPSpec GPTheorems TensorModel TensorSpec TensorProofs KernelLemmas
  HyperModel HyperSpec NamedModel NamedSpec KernelModel KernelSpec FlowSpec LossModel LossSpec ChassisModel ChassisSpec WorkSpec FarSpec FarProofs
  TrainSpec ShearModel ShearSpec ShearFlowSpec ShearProofs ShearPsd ShearLemmas ShearGram ShearFlow ShearEdge ShearTrainModel ShearTrainSpec ShearTrainProofs ShearTrainProofs2
  BestSpec ShearBestSpec ShearBestProofs ShearBestProofs3 ShearFarProofs.
Local Open Scope R_scope.

Lemma obs_prior l a x : 0 < l -> shear_cov l (obs a) (obs a) x x <= 2 / l ^ 2.
Proof.
  intros L. destruct (prior_value l x ltac:(lra)) as (A & B & C). assert (0 < / l ^ 2) by (apply Rinv_0_lt_compat, pow_lt; exact L).
  destruct (obs a); rewrite ?A, ?B, ?C; unfold Rdiv; lra.
Qed.

Lemma cov_bound l a c x y : 0 < l -> Rabs (shear_cov l (obs a) (obs c) x y) <= 2 / l ^ 2.
Proof.
  intros L. set (P := fun i : nat => match i with O => x | _ => y end). set (ob := fun i => match i with O => a | _ => c end).
  assert (PS : psd 2 (fun i j => shear_cov l (obs (ob i)) (obs (ob j)) (P i) (P j))).
  { apply (psd_ext 2 (fun i j => cform l (ob i) (ob j) (P i 0%nat - P j 0%nat) (P i 1%nat - P j 1%nat))); [intros; apply cform_cov; lra|].
    apply (shear_gram_psd l 2 ob P L). }
  pose proof (obs_prior l a x L) as A. pose proof (obs_prior l c y L) as C.
  pose proof (cov_sym_obs l (obs a) (obs c) x y ltac:(lra)) as S.
  pose proof (PS (fun i => match i with O => 1 | _ => 1 end)) as P1. pose proof (PS (fun i => match i with O => 1 | _ => -1 end)) as P2.
  unfold quad in P1, P2. cbn [rsum] in P1, P2. unfold P, ob in P1, P2. cbv beta iota in P1, P2. apply Rabs_le. split; lra.
Qed.

Section Far.
Variable ls : lsolver.
Hypothesis EX : exact_solver ls.

Lemma shear_noisy km sn s F l v test train targets ix nn m n b k Y : shear_trainable km sn s F -> shear_values s F l v ->
  shear_inputs test train targets ix nn m n b k -> 0 <= f_var_scale F -> (forall i o, (i < n)%nat -> (o < 3)%nat -> Rabs (at_ targets [i; o]) <= Y) ->
  exists mean var, shear_posterior ls km sn s F test train targets ix nn = Ok (mean, var) /\
    forall x r, (x < b)%nat -> selects m (at_ ix [x]) r ->
      let N := INR (observed km * k) in let h := 2 / l ^ 2 in
      forall o, (o < 3)%nat -> Rabs (at_ mean [x; o]) <= N * h * Y / v /\
        forall o', (o' < 3)%nat ->
          Rabs (at_ var [x; o; o'] - f_var_scale F * shear_cov l (obs o) (obs o') (feature test r) (feature test r)) <= f_var_scale F * (N * h ^ 2 / v).
Proof.
  intros TR SV IN SC TB.
  assert (PV : 0 < l /\ 0 < v).
  { destruct TR as (_ & (l' & v' & (nl1 & nv1 & EK1 & EN1 & -> & ->) & H1 & H2) & _). destruct SV as (nl & nv & EK & EN & -> & ->).
    rewrite EK in EK1. rewrite EN in EN1. injection EK1 as ->. injection EN1 as ->. auto. }
  destruct PV as [Hl Hv].
  destruct (shear_posterior_ok ls EX km sn s F l v test train targets ix nn m n b k TR SV IN) as (mean & var & E & _ & _ & H).
  exists mean, var. split; [exact E|]. intros x r Hx Hr N h o Ho.
  set (rows := fun i => row_of n (at_ nn [x; i])).
  assert (SR : forall i, (i < k)%nat -> selects n (at_ nn [x; i]) (rows i)).
  { intros i Hi. apply row_of_selects. apply (si_nnok _ _ _ _ _ _ _ _ _ IN); auto. }
  destruct (H x r rows o Hx Ho Hr SR) as ((u & U & ->) & (w & W & VA) & _).
  set (A := plus_diag (stacked_cov l (unobserved km) k (fun i => feature train (rows i))) (obs_noise sn v k)) in *.
  assert (H0 : 0 <= h) by (unfold h; apply Rmult_le_pos; [lra|left; apply Rinv_0_lt_compat, pow_lt; auto]).
  assert (K0 : (0 < k)%nat) by (pose proof (si_k _ _ _ _ _ _ _ _ _ IN); lia).
  assert (CO : coercive (observed km * k) A v).
  { apply coercive_diag; [apply stacked_psd; exact Hl|]. intros i Hi. unfold obs_noise, shear_noise, flat_noise. destruct sn; [destruct (i <? k)%nat|]; lra. }
  assert (PB : forall p, (p < observed km * k)%nat -> (p mod k < k)%nat /\ (unobserved km + p / k < 3)%nat).
  { intros p Hp. split; [apply Nat.mod_upper_bound; lia|]. assert (p / k < observed km)%nat by (apply Nat.div_lt_upper_bound; lia). destruct km; cbn in *; lia. }
  assert (CB : forall o', (o' < 3)%nat -> forall p, (p < observed km * k)%nat ->
    Rabs (stacked_cross l (unobserved km) k (fun i => feature train (rows i)) (feature test r) o' p) <= h).
  { intros o' Ho' p Hp. unfold stacked_cross. apply cov_bound. exact Hl. }
  assert (Y0 : 0 <= Y).
  { pose proof (SR 0%nat K0) as [R0 _]. eapply Rle_trans; [apply Rabs_pos|apply (TB (rows 0%nat) 0%nat R0); lia]. }
  split.
  - unfold N. apply (weights_bound _ A v u (stacked_cross l (unobserved km) k (fun i => feature train (rows i)) (feature test r) o)); auto.
    intros p Hp. destruct (PB p Hp) as [P1 P2]. apply TB; [apply (SR _ P1)|exact P2].
  - intros o' Ho'. rewrite VA by exact Ho'.
    match goal with |- Rabs (?sc * (?a - ?b) - ?sc * ?a) <= _ => replace (sc * (a - b) - sc * a) with (- (sc * b)) by ring end.
    rewrite Rabs_Ropp, Rabs_mult, (Rabs_pos_eq _ SC). apply Rmult_le_compat_l; [exact SC|].
    replace (N * h ^ 2 / v) with (N * h * h / v) by (unfold Rdiv; ring). unfold N.
    apply (weights_bound _ A v w (stacked_cross l (unobserved km) k (fun i => feature train (rows i)) (feature test r) o)); auto.
Qed.

(** One observation alone as a predictor. *)
Definition pick (o j a i : nat) : R := if (a =? o)%nat && (i =? j)%nat then 1 else 0.
Lemma over_pick km k o j f : (unobserved km <= o < 3)%nat -> (j < k)%nat -> over km k (fun a i => pick o j a i * f a i) = f o j.
Proof.
  intros Ho Hj. unfold over. rewrite (rsum_ext _ _ (fun a => delta (o - unobserved km)%nat a * f (unobserved km + a)%nat j)).
  - rewrite rsum_delta_l by (destruct km; cbn in *; lia). f_equal. lia.
  - intros a Ha. rewrite (rsum_ext _ _ (fun i => delta j i * (delta (o - unobserved km)%nat a * f (unobserved km + a)%nat i))).
    + rewrite rsum_delta_l by exact Hj. reflexivity.
    + intros i Hi. unfold pick, delta. rewrite (Nat.eqb_sym j i).
      destruct (Nat.eqb_spec (unobserved km + a) o) as [E1|E1], (Nat.eqb_spec (o - unobserved km) a) as [E2|E2]; try lia; destruct (i =? j)%nat; cbn [andb]; ring.
Qed.

Lemma pick_error km sn l v train k rows point o j : (unobserved km <= o < 3)%nat -> (j < k)%nat ->
  point 0%nat = feature train (rows j) 0%nat -> point 1%nat = feature train (rows j) 1%nat ->
  lens_error km sn l v train k rows point o (pick o j) = lens_noise sn v o.
Proof.
  intros Ho Hj E0 E1. unfold lens_error.
  rewrite over_pick by auto.
  assert (EI : over km k (fun a i => over km k (fun a' i' => pick o j a i * pick o j a' i' * lens_obs_cov l sn v train rows a i a' i')) =
    lens_obs_cov l sn v train rows o j o j).
  { transitivity (over km k (fun a i => pick o j a i * lens_obs_cov l sn v train rows a i o j)).
    - unfold over at 1 3. apply rsum_ext. intros a Ha. apply rsum_ext. intros i Hi.
      rewrite <- (over_pick km k o j (fun a' i' => lens_obs_cov l sn v train rows (unobserved km + a) i a' i') Ho Hj).
      unfold over. rewrite <- rsum_scal. apply rsum_ext. intros a' Ha'. rewrite <- rsum_scal. apply rsum_ext. intros i' Hi'. ring.
    - apply (over_pick km k o j (fun a i => lens_obs_cov l sn v train rows a i o j)); auto. }
  rewrite EI. unfold lens_obs_cov. rewrite !Nat.eqb_refl. cbn [andb]. unfold shear_cov. rewrite E0, E1. ring.
Qed.

Lemma observed_point km sn s F l v test train targets ix nn m n b k : shear_trainable km sn s F -> shear_values s F l v ->
  shear_inputs test train targets ix nn m n b k -> 0 <= f_var_scale F ->
  exists mean var, shear_posterior ls km sn s F test train targets ix nn = Ok (mean, var) /\
    forall x r i a o, (x < b)%nat -> selects m (at_ ix [x]) r -> (i < k)%nat -> selects n (at_ nn [x; i]) a ->
      (forall f, (f < 2)%nat -> feature test r f = feature train a f) -> (unobserved km <= o < 3)%nat ->
      at_ var [x; o; o] <= f_var_scale F * lens_noise sn v o.
Proof.
  intros TR SV IN SC.
  set (r := fun x => row_of m (at_ ix [x])). set (rows := fun x i => row_of n (at_ nn [x; i])).
  assert (HR : forall x, (x < b)%nat -> selects m (at_ ix [x]) (r x)).
  { intros x Hx. apply row_of_selects. apply (si_ixok _ _ _ _ _ _ _ _ _ IN). exact Hx. }
  assert (HS : forall x i, (x < b)%nat -> (i < k)%nat -> selects n (at_ nn [x; i]) (rows x i)).
  { intros x i Hx Hi. apply row_of_selects. apply (si_nnok _ _ _ _ _ _ _ _ _ IN); auto. }
  destruct (shear_best ls EX km sn s F l v test train ix nn m n b k r rows TR SV HR HS) as (u & H).
  destruct (H targets IN) as (mean & var & E & V). exists mean, var. split; [exact E|].
  intros x r' i a o Hx Hr Hi Ha EQ Ho. pose proof (selects_inj _ _ _ _ Hr (HR x Hx)) as ->. pose proof (selects_inj _ _ _ _ Ha (HS x i Hx Hi)) as ->.
  destruct (V x o Hx ltac:(lia)) as (_ & EV & BEST). rewrite EV. apply Rmult_le_compat_l; [exact SC|].
  destruct (BEST (pick o i)) as [LE _]. eapply Rle_trans; [exact LE|]. right. apply pick_error; auto.
Qed.
End Far.
