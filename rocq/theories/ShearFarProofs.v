(** Far from the survey, lensing predictions revert to the prior. *)
From Coq Require Import Lia Lra.
From Verif Require Import Base BaseFacts NdModel NdFacts RSum LinAlgModel LinAlgSpec LinAlgFacts Gauss
  GPModel NoiseModel NoiseProofs MuyGPSModel GPSpec GPTheorems TensorModel TensorSpec TensorProofs KernelLemmas
  HyperModel HyperSpec NamedModel NamedSpec KernelModel KernelSpec FlowSpec LossModel LossSpec ChassisModel ChassisSpec WorkSpec FarSpec FarProofs
  TrainSpec ShearModel ShearSpec ShearFlowSpec ShearProofs ShearFlow ShearEdge ShearTrainModel ShearTrainSpec ShearTrainProofs ShearTrainProofs2
  ShearBestSpec ShearBestProofs.
Local Open Scope R_scope.

Lemma exp_decay l s : 0 < l -> 0 < s -> exp (- s / (2 * l)) * (6 * l + s) ^ 2 <= 216 * l ^ 3 / s.
Proof.
  intros L S0. set (z := s / (6 * l)). assert (Z0 : 0 < z) by (apply Rdiv_lt_0_compat; lra).
  assert (SE : s = 6 * l * z) by (unfold z; field; lra).
  replace (- s / (2 * l)) with (- (3 * z)) by (rewrite SE; field; lra).
  assert (E3 : (1 + z) ^ 3 <= exp (3 * z)).
  { replace (exp (3 * z)) with (exp z ^ 3); [apply pow_incr; split; [lra|apply exp_ineq1_le]|].
    cbn [pow]. rewrite Rmult_1_r, <- !exp_plus. f_equal. ring. }
  rewrite exp_Ropp. assert (EP : 0 < exp (3 * z)) by apply exp_pos.
  replace ((6 * l + s) ^ 2) with (36 * l ^ 2 * (1 + z) ^ 2) by (rewrite SE; ring).
  replace (216 * l ^ 3 / s) with (36 * l ^ 2 * / z) by (rewrite SE; field; split; lra).
  rewrite Rmult_comm, Rmult_assoc. apply Rmult_le_compat_l; [apply Rmult_le_pos; [lra|apply pow2_ge_0]|].
  apply (Rmult_le_reg_r (exp (3 * z) * z)); [apply Rmult_lt_0_compat; lra|].
  replace ((1 + z) ^ 2 * / exp (3 * z) * (exp (3 * z) * z)) with ((1 + z) ^ 2 * z) by (field; lra).
  replace (/ z * (exp (3 * z) * z)) with (exp (3 * z)) by (field; lra).
  eapply Rle_trans; [|exact E3]. cbn [pow]. nra.
Qed.

Lemma cform_decay l a c u v D : 0 < l -> 0 < D -> D ^ 2 <= u ^ 2 + v ^ 2 -> Rabs (cform l a c u v) <= 162 / (l * D ^ 2).
Proof.
  intros L D0 HD. set (s := u ^ 2 + v ^ 2) in *. assert (D2 : 0 < D ^ 2) by (apply pow_lt; exact D0). assert (S0 : 0 < s) by lra.
  set (e := exp (- s / (2 * l))) in *. assert (E0 : 0 < e) by apply exp_pos.
  assert (DEC : e * (6 * l + s) ^ 2 <= 216 * l ^ 3 / s) by (apply exp_decay; auto).
  assert (L4 : 0 < l ^ 4) by (apply pow_lt; exact L).
  assert (FIN : forall Q X, X = Q * e / l ^ 4 -> Rabs Q <= 3 / 4 * (6 * l + s) ^ 2 -> Rabs X <= 162 / (l * D ^ 2)).
  { intros Q X -> HQ. unfold Rdiv at 1. rewrite !Rabs_mult, (Rabs_pos_eq e) by lra. rewrite (Rabs_pos_eq (/ l ^ 4)) by (left; apply Rinv_0_lt_compat; exact L4).
    apply Rle_trans with (3 / 4 * (216 * l ^ 3 / s) * / l ^ 4).
    - apply Rmult_le_compat_r; [left; apply Rinv_0_lt_compat; exact L4|]. apply Rle_trans with (3 / 4 * (6 * l + s) ^ 2 * e); [apply Rmult_le_compat_r; lra|]. lra.
    - replace (3 / 4 * (216 * l ^ 3 / s) * / l ^ 4) with (162 * / (l * s)) by (field; lra). unfold Rdiv. apply Rmult_le_compat_l; [lra|].
      apply Rinv_le_contravar; [apply Rmult_lt_0_compat; auto|]. apply Rmult_le_compat_l; lra. }
  set (p := u ^ 2) in *. set (r := v ^ 2) in *. assert (P0 : 0 <= p) by apply pow2_ge_0. assert (R0 : 0 <= r) by apply pow2_ge_0.
  assert (P4 : u ^ 4 = p ^ 2) by (unfold p; ring). assert (R4 : v ^ 4 = r ^ 2) by (unfold r; ring).
  assert (UV : Rabs (u * v) <= s / 2).
  { apply Rabs_le. unfold s, p, r. cbn [pow]. pose proof (pow2_ge_0 (u + v)) as X. pose proof (pow2_ge_0 (u - v)) as Y. cbn [pow] in X, Y. split; nra. }
  assert (LP : 0 <= l * p) by (apply Rmult_le_pos; lra). assert (LR : 0 <= l * r) by (apply Rmult_le_pos; lra).
  assert (PR : 0 <= p * r) by (apply Rmult_le_pos; lra). assert (LL : 0 < l * l) by (apply Rmult_lt_0_compat; lra).
  assert (PP : 0 <= p * p) by (apply Rmult_le_pos; lra). assert (RR : 0 <= r * r) by (apply Rmult_le_pos; lra).
  unfold cform. cbv zeta. fold p r s. fold e. rewrite P4, R4.
  assert (KG2 : Rabs (1 / 2 * (u * v) * (-6 * l + s)) <= 3 / 4 * (6 * l + s) ^ 2).
  { rewrite Rabs_mult, (Rabs_mult (1 / 2) (u * v)), (Rabs_pos_eq (1 / 2)) by lra. apply Rle_trans with (1 / 2 * (s / 2) * (6 * l + s)).
    - apply Rmult_le_compat; [apply Rmult_le_pos; [lra|apply Rabs_pos]|apply Rabs_pos|apply Rmult_le_compat_l; [lra|exact UV]|apply Rabs_le; lra].
    - unfold s. cbn [pow]. nra. }
  assert (G12 : Rabs (1 / 2 * (u * v) * (p - r)) <= 3 / 4 * (6 * l + s) ^ 2).
  { rewrite Rabs_mult, (Rabs_mult (1 / 2) (u * v)), (Rabs_pos_eq (1 / 2)) by lra. apply Rle_trans with (1 / 2 * (s / 2) * s).
    - apply Rmult_le_compat; [apply Rmult_le_pos; [lra|apply Rabs_pos]|apply Rabs_pos|apply Rmult_le_compat_l; [lra|exact UV]|apply Rabs_le; unfold s; lra].
    - unfold s. cbn [pow]. nra. }
  assert (KK : Rabs (1 / 4 * (8 * l ^ 2 - 8 * l * s + 2 * (p * r) + (p ^ 2 + r ^ 2))) <= 3 / 4 * (6 * l + s) ^ 2) by (apply Rabs_le; unfold s; cbn [pow]; split; nra).
  assert (KG1 : Rabs (1 / 4 * (6 * l * (r - p) + (p ^ 2 - r ^ 2))) <= 3 / 4 * (6 * l + s) ^ 2) by (apply Rabs_le; unfold s; cbn [pow]; split; nra).
  assert (G11 : Rabs (1 / 4 * (4 * l ^ 2 - 4 * l * s - 2 * (p * r) + (p ^ 2 + r ^ 2))) <= 3 / 4 * (6 * l + s) ^ 2) by (apply Rabs_le; unfold s; cbn [pow]; split; nra).
  assert (G22 : Rabs (l ^ 2 - l * s + p * r) <= 3 / 4 * (6 * l + s) ^ 2) by (apply Rabs_le; unfold s; cbn [pow]; split; nra).
  destruct (obs a), (obs c); unfold kk_fn, kg1_fn, kg2_fn, g1g1_fn, g1g2_fn, g2g2_fn;
    replace 0.25 with (1 / 4) by lra; replace 0.5 with (1 / 2) by lra.
  all: first [eapply FIN; [|exact KK]; unfold Rdiv; ring|eapply FIN; [|exact KG1]; unfold Rdiv; ring|eapply FIN; [|exact KG2]; unfold Rdiv; ring
             |eapply FIN; [|exact G11]; unfold Rdiv; ring|eapply FIN; [|exact G12]; unfold Rdiv; ring|eapply FIN; [|exact G22]; unfold Rdiv; ring].
Qed.

Lemma weights_bound n A c w k y h Y : 0 < c -> coercive n A c -> solves n A w k -> 0 <= h -> 0 <= Y ->
  (forall i, (i < n)%nat -> Rabs (k i) <= h) -> (forall i, (i < n)%nat -> Rabs (y i) <= Y) -> Rabs (dot n w y) <= INR n * h * Y / c.
Proof.
  intros C0 CO SO H0 Y0 HK HY. destruct (coercive_weights n A k w c C0 CO SO) as (_ & W & _).
  assert (SQ : forall x B, Rabs x <= B -> x ^ 2 <= B ^ 2).
  { intros x B HB. rewrite <- (pow2_abs x). apply pow_incr. split; [apply Rabs_pos|exact HB]. }
  assert (K2 : rsum n (fun i => k i ^ 2) <= INR n * h ^ 2) by (rewrite <- rsum_const; apply rsum_le; intros i Hi; apply SQ; auto).
  assert (Y2 : rsum n (fun i => y i ^ 2) <= INR n * Y ^ 2) by (rewrite <- rsum_const; apply rsum_le; intros i Hi; apply SQ; auto).
  pose proof (cauchy_schwarz n w y) as CS. fold (dot n w y) in CS.
  assert (N0 : 0 <= INR n) by apply pos_INR. assert (C2 : 0 < c ^ 2) by (apply pow_lt; exact C0).
  assert (B0 : 0 <= INR n * h * Y) by (apply Rmult_le_pos; [apply Rmult_le_pos|]; auto).
  assert (W0 : 0 <= rsum n (fun i => w i ^ 2)) by (apply rsum_nonneg; intros; apply pow2_ge_0).
  assert (Q : (c * dot n w y) ^ 2 <= (INR n * h * Y) ^ 2).
  { replace ((c * dot n w y) ^ 2) with (c ^ 2 * (dot n w y * dot n w y)) by ring. cbv beta in CS.
    apply Rle_trans with (c ^ 2 * (rsum n (fun i => w i ^ 2) * rsum n (fun i => y i ^ 2))).
    - apply Rmult_le_compat_l; [lra|]. cbn [pow] in CS |- *. rewrite ?Rmult_1_r in CS. lra.
    - rewrite <- Rmult_assoc. replace ((INR n * h * Y) ^ 2) with (INR n * h ^ 2 * (INR n * Y ^ 2)) by ring.
      apply Rmult_le_compat; [apply Rmult_le_pos; lra|apply rsum_nonneg; intros; apply pow2_ge_0|lra|exact Y2]. }
  apply (Rmult_le_reg_l c); [exact C0|]. replace (c * (INR n * h * Y / c)) with (INR n * h * Y) by (field; lra).
  rewrite <- (Rabs_pos_eq c) at 1 by lra. rewrite <- Rabs_mult. rewrite <- (Rabs_pos_eq (INR n * h * Y)) by exact B0.
  apply Rsqr_le_abs_0. rewrite !Rsqr_pow2. exact Q.
Qed.

Section Far.
Variable ls : lsolver.
Hypothesis EX : exact_solver ls.

Lemma shear_far km sn s F l v test train targets ix nn m n b k Y : shear_trainable km sn s F -> shear_values s F l v ->
  shear_inputs test train targets ix nn m n b k -> 0 <= f_var_scale F -> (forall i o, (i < n)%nat -> (o < 3)%nat -> Rabs (at_ targets [i; o]) <= Y) ->
  exists mean var, shear_posterior ls km sn s F test train targets ix nn = Ok (mean, var) /\
    forall x r D, (x < b)%nat -> selects m (at_ ix [x]) r -> 0 < D -> far_from test train n r D ->
      let N := INR (observed km * k) in let h := 162 / (l * D ^ 2) in
      forall o, (o < 3)%nat -> Rabs (at_ mean [x; o]) <= N * h * Y / v /\
        forall o', (o' < 3)%nat ->
          Rabs (at_ var [x; o; o'] - f_var_scale F * shear_cov l (obs o) (obs o') (feature test r) (feature test r)) <= f_var_scale F * (N * h ^ 2 / v).
Proof.
  intros TR SV IN SC TB.
  assert (PV : 0 < l /\ 0 < v).
  { destruct TR as (_ & (l' & v' & (nl1 & nv1 & EK1 & EN1 & -> & ->) & H1 & H2) & _). destruct SV as (nl & nv & EK & EN & -> & ->).
    rewrite EK in EK1. rewrite EN in EN1. injection EK1 as ->. injection EN1 as ->. auto. }
  destruct PV as [Hl Hv].
  destruct (shear_posterior_ok ls EX km sn s F l v test train targets ix nn m n b k TR SV IN) as (mean & var & E & _ & _ & H).
  exists mean, var. split; [exact E|]. intros x r D Hx Hr D0 FF N h o Ho.
  set (rows := fun i => row_of n (at_ nn [x; i])).
  assert (SR : forall i, (i < k)%nat -> selects n (at_ nn [x; i]) (rows i)).
  { intros i Hi. apply row_of_selects. apply (si_nnok _ _ _ _ _ _ _ _ _ IN); auto. }
  destruct (H x r rows o Hx Ho Hr SR) as ((u & U & ->) & (w & W & VA) & _).
  set (A := plus_diag (stacked_cov l (unobserved km) k (fun i => feature train (rows i))) (obs_noise sn v k)) in *.
  assert (D2 : 0 < D ^ 2) by (apply pow_lt; exact D0).
  assert (H0 : 0 <= h) by (unfold h; apply Rmult_le_pos; [lra|left; apply Rinv_0_lt_compat, Rmult_lt_0_compat; auto]).
  assert (K0 : (0 < k)%nat) by (pose proof (si_k _ _ _ _ _ _ _ _ _ IN); lia).
  assert (CO : coercive (observed km * k) A v).
  { apply coercive_diag; [apply stacked_psd; exact Hl|]. intros i Hi. unfold obs_noise, shear_noise, flat_noise. destruct sn; [destruct (i <? k)%nat|]; lra. }
  assert (PB : forall p, (p < observed km * k)%nat -> (p mod k < k)%nat /\ (unobserved km + p / k < 3)%nat).
  { intros p Hp. split; [apply Nat.mod_upper_bound; lia|]. assert (p / k < observed km)%nat by (apply Nat.div_lt_upper_bound; lia). destruct km; cbn in *; lia. }
  assert (CB : forall o', (o' < 3)%nat -> forall p, (p < observed km * k)%nat ->
    Rabs (stacked_cross l (unobserved km) k (fun i => feature train (rows i)) (feature test r) o' p) <= h).
  { intros o' Ho' p Hp. destruct (PB p Hp) as [P1 P2]. unfold stacked_cross. rewrite cov_closed by lra. apply cform_decay; auto.
    specialize (FF (rows (p mod k)%nat) (proj1 (SR _ P1))). unfold euclid, sqdist, feature_count in FF. rewrite (si_train _ _ _ _ _ _ _ _ _ IN) in FF.
    cbn [rsum] in FF. set (X := feature train (rows (p mod k)%nat)) in *. set (T := feature test r) in *.
    match type of FF with _ <= sqrt ?q => assert (Q : q = (X 0%nat - T 0%nat) ^ 2 + (X 1%nat - T 1%nat) ^ 2) by ring; rewrite Q in FF end.
    assert (Q0 : 0 <= (X 0%nat - T 0%nat) ^ 2 + (X 1%nat - T 1%nat) ^ 2) by (apply Rplus_le_le_0_compat; apply pow2_ge_0).
    rewrite <- (pow2_sqrt _ Q0). apply pow_incr. split; [lra|exact FF]. }
  assert (Y0 : 0 <= Y).
  { pose proof (SR 0%nat K0) as [R0 _]. eapply Rle_trans; [apply Rabs_pos|apply (TB (rows 0%nat) 0%nat R0); lia]. }
  split.
  - unfold N. apply (weights_bound _ A v u (stacked_cross l (unobserved km) k (fun i => feature train (rows i)) (feature test r) o)); auto.
    intros p Hp. destruct (PB p Hp) as [P1 P2]. apply TB; [apply (SR _ P1)|exact P2].
  - intros o' Ho'. rewrite VA by exact Ho'. 
    match goal with |- Rabs (?sc * (?a - ?b) - ?sc * ?a) <= _ => replace (sc * (a - b) - sc * a) with (- (sc * b)) by ring end.
    rewrite Rabs_Ropp, Rabs_mult, (Rabs_pos_eq _ SC). apply Rmult_le_compat_l; [exact SC|].
    replace (N * h ^ 2 / v) with (N * h * h / v) by (unfold Rdiv; ring). unfold N.
    apply (weights_bound _ A v w (stacked_cross l (unobserved km) k (fun i => feature train (rows i)) (feature test r) o)); auto.
Qed.
End Far.
